(* What a file system with folders looks like and what creating folders does to it. *)
From Coq Require Export Ascii.
From Verif Require Import Common PathSpec FsModel.
Local Open Scope char_scope.
Local Open Scope list_scope.

(* a name the operating system allows: it may contain backslashes *)
Definition os_name (c : list ascii) : Prop :=
  c <> [] /\ c <> chars "." /\ c <> chars ".." /\ Forall (fun x => x <> "/" /\ x <> "000") c.

(* everything is stored once, under allowed names, and inside a folder *)
Definition sane (o : os) : Prop :=
  NoDup (map fst (nodes o)) /\
  forall p k, In (p, k) (nodes o) -> p <> [] /\ Forall os_name p /\ node o (removelast p) = Some Folder.

(* [x] stands for the path [cs], and knows what is there *)
Definition names_path (x : ofile) (cs : path) : Prop := PathModel.file_absolute (o_file x) = Ok (path_of cs).
Definition knows (o : os) (x : ofile) (cs : path) : Prop := o_stat x = node o cs.

(* [q] is an ancestor of [p] or [p] itself, but not the root *)
Definition on_the_way (q p : path) : Prop := q <> [] /\ exists r, p = q ++ r.

(* the only difference is that some folders on the way to [p] are new *)
Definition only_folders_on (p : path) (o o' : os) : Prop :=
  may o' = may o /\
  (forall q k, node o q = Some k -> node o' q = Some k) /\
  (forall q, node o q = None -> node o' q <> None -> node o' q = Some Folder /\ on_the_way q p).

(* folders can be created all the way down to [p]: whatever exists on the way is a folder,
   and the folders something is missing in can be written to *)
Definition creatable (o : os) (p : path) : Prop :=
  forall q c r, p = q ++ c :: r ->
    (node o q = None \/ node o q = Some Folder) /\ (node o (q ++ [c]) = None -> may o q = true).
