(* File objects of src/utility/file.cpp against a file system, and the output file of the
   film (src/cameras/image_film.cpp:6-43); the branch for systems other than Windows.

   The operating system is modelled as follows.  A file system is a list of paths with
   what they name, a folder or a regular file; the root is always a folder.  There are
   no links and no other kinds of files.  [may p] says that the process can write to p;
   it does not change.  access, stat, mkdir and opendir resolve the components of the
   string they are given, separated by slashes, and do what POSIX says for this case;
   permissions to search folders, limits of the system and other processes are left out.
   readdir lists the two dots first and then the entries in the order of the list; the
   theorems do not depend on the order. *)
From Coq Require Import String.
From Verif Require Import Common ArrayIO PathModel PathSpec CodecModel.
Local Open Scope char_scope.
Local Open Scope list_scope.
Local Open Scope nat_scope.

Inductive kind := Folder | Regular.

Definition path := list (list ascii).
Definition path_dec : forall a b : path, {a = b} + {a <> b} := list_eq_dec (list_eq_dec ascii_dec).

Record os := mk_os { nodes : list (path * kind); may : path -> bool }.

Fixpoint find_node (l : list (path * kind)) (p : path) : option kind :=
  match l with
  | [] => None
  | (q, k) :: l => if path_dec q p then Some k else find_node l p
  end.

Definition node (o : os) (p : path) : option kind :=
  match p with [] => Some Folder | _ => find_node (nodes o) p end.

(* the components of a string for the operating system: only slashes separate *)
Fixpoint os_pieces (l : list ascii) : list (list ascii) :=
  match l with
  | [] => [[]]
  | c :: l =>
    if (c =? slash)%char then [] :: os_pieces l
    else match os_pieces l with p :: ps => (c :: p) :: ps | [] => [] end
  end.
Definition os_path (s : list ascii) : path := fold_left walk (os_pieces s) [].

Definition os_stat (o : os) (s : list ascii) : option kind := node o (os_path s).
Definition os_access (o : os) (s : list ascii) : bool :=
  match os_stat o s with Some _ => true | None => false end.
Definition os_writable (o : os) (s : list ascii) : bool := os_access o s && may o (os_path s).

Definition os_mkdir (o : os) (s : list ascii) : bool * os :=
  let p := os_path s in
  match node o p with
  | Some _ => (false, o)
  | None =>
    match node o (removelast p) with
    | Some Folder =>
      if may o (removelast p) then (true, mk_os ((p, Folder) :: nodes o) (may o)) else (false, o)
    | _ => (false, o)
    end
  end.

Definition os_readdir (o : os) (p : path) : list (list ascii) :=
  chars "." :: chars ".." ::
  flat_map (fun e =>
    match fst e with
    | [] => []
    | _ => if path_dec (removelast (fst e)) p then [last (fst e) []] else []
    end) (nodes o).

(* file.hpp:216-223: a File with the result of stat (statres and fileinfo) *)
Record ofile := mk_ofile { o_file : file; o_stat : option kind }.

(* file.cpp:143-168 *)
Definition ofile_new (o : os) (cwd s : list ascii) : res ofile :=
  let! f := file_new cwd s in
  let! a := file_absolute f in
  Ok (mk_ofile f (os_stat o a)).

(* file.cpp:194-205 and, for two different objects, 274-288 *)
Definition ofile_copy (x : ofile) : res ofile :=
  let! f := file_copy (o_file x) in Ok (mk_ofile f (o_stat x)).

(* file.cpp:290-311 *)
Definition ofile_append (o : os) (x : ofile) (s : list ascii) : res ofile :=
  let! f := file_append (o_file x) s in
  let! a := file_absolute f in
  Ok (mk_ofile f (os_stat o a)).

(* file.cpp:313-361: the result is a copy, with the result of stat of the original *)
Definition ofile_parent (x : ofile) : res ofile :=
  let! f := file_parent (o_file x) in Ok (mk_ofile f (o_stat x)).

(* file.cpp:227-250 *)
Definition of_exists (o : os) (x : ofile) : res bool :=
  let! a := file_absolute (o_file x) in Ok (os_access o a).
Definition of_writable (o : os) (x : ofile) : res bool :=
  let! a := file_absolute (o_file x) in Ok (os_writable o a).

(* file.cpp:252-272 *)
Definition of_is_folder (x : ofile) : bool := match o_stat x with Some Folder => true | _ => false end.
Definition of_is_file (x : ofile) : bool := match o_stat x with Some Regular => true | _ => false end.

(* file.cpp:363-373 File::mkdir *)
Definition of_mkdir (o : os) (x : ofile) : res (bool * os * ofile) :=
  let! a := file_absolute (o_file x) in
  let (r, o) := os_mkdir o a in
  Ok (r, o, mk_ofile (o_file x) (os_stat o a)).

(* file.cpp:387, while(index<len && absolute[++index] != '/') *)
Fixpoint next_sep (fuel : nat) (mem : list ascii) (len index : nat) : res nat :=
  match fuel with
  | O => OutOfFuel
  | S fuel =>
    if index <? len then
      let! c := rd mem (Z.of_nat (S index)) in
      if (c =? slash)%char then Ok (S index) else next_sep fuel mem len (S index)
    else Ok index
  end.

(* file.cpp:384-410: the loop over the separators; the file system, the bytes of
   absolute, the result of stat and created *)
Fixpoint mkdirs_loop (fuel : nat) (o : os) (mem : list ascii) (st : option kind) (len index : nat)
  (created : bool) : res (os * list ascii * option kind * bool) :=
  match fuel with
  | O => OutOfFuel
  | S fuel =>
    if index <? len then
      let! i := next_sep (S len) mem len index in
      let! m := upd mem (Z.of_nat i) nul in
      let! s := c_string m 0 in
      let '(r, o, st, created) :=
        if os_access o s then (true, o, st, created)
        else let (r, o) := os_mkdir o s in (r, o, os_stat o s, true) in
      let! m := upd m (Z.of_nat i) slash in
      if r then mkdirs_loop fuel o m st len i created
      else Ok (o, m, st, false)
    else Ok (o, mem, st, created)
  end.

(* file.cpp:375-416 File::mkdirs *)
Definition of_mkdirs (o : os) (x : ofile) : res (bool * os * ofile) :=
  let! (r, o, x) := of_mkdir o x in
  if r then Ok (true, o, x)
  else
    let! a := file_absolute (o_file x) in
    let len := length a in
    let! (o, mem, st, created) := mkdirs_loop (S len) o (f_mem (o_file x)) (o_stat x) len 1 false in
    let! mem := upd mem (Z.of_nat len) nul in
    let f := {| f_mem := mem; f_file := f_file (o_file x); f_ext := f_ext (o_file x) |} in
    Ok (created, o, mk_ofile f st).

(* file.cpp:447-472: one entry; [allocated] is the room in element_name *)
Fixpoint ls_loop (o : os) (cwd abs : list ascii) (allocated : nat) (names : list (list ascii)) : res (list ofile) :=
  match names with
  | [] => Ok []
  | n :: names =>
    let allocated :=
      if allocated <=? length abs + 1 + 2 + length n then length abs + 1 + 2 + length n else allocated in
    if list_eq_dec ascii_dec n (chars ".") then ls_loop o cwd abs allocated names
    else if list_eq_dec ascii_dec n (chars "..") then ls_loop o cwd abs allocated names
    else if length (abs ++ [slash] ++ n) <? allocated then
      let! x := ofile_new o cwd (abs ++ [slash] ++ n) in
      let! xs := ls_loop o cwd abs allocated names in
      Ok (x :: xs)
    else UB
  end.

(* file.cpp:418-478 File::ls; opendir fails unless the path names a folder *)
Definition of_ls (o : os) (cwd : list ascii) (x : ofile) : res (list ofile) :=
  let! abs := file_absolute (o_file x) in
  if of_is_folder x then
    match os_stat o abs with
    | Some Folder => ls_loop o cwd abs (length abs + 255) (os_readdir o (os_path abs))
    | _ => Ok []
    end
  else Ok [].

(* image_film.cpp:6-43: the output file of the film; None: a critical message, which ends
   the program *)
Definition film_output (l : libs) (o : os) (cwd fullpath : list ascii) : res (option ofile) :=
  let! out := ofile_new o cwd fullpath in
  let! e := of_exists o out in
  if e && of_is_folder out then Ok None
  else
    let! parent := ofile_parent out in
    let! w := of_writable o parent in
    if w then
      let! ext := file_extension (o_file out) in
      if supported l (string_of_list_ascii ext) then Ok (Some out)
      else
        let! out := ofile_new o cwd (fullpath ++ chars ".ppm") in
        let! e := of_exists o out in
        if e && of_is_folder out then Ok None else Ok (Some out)
    else Ok None.

(* image_film.cpp:178-181 with imageio.c:8-31: the format written; None: nothing is *)
Definition film_format (l : libs) (out : ofile) : res (option format) :=
  let! ext := file_extension (o_file out) in Ok (write_format l (string_of_list_ascii ext)).
