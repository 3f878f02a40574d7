(* Model of src/materials/material_library.cpp and
   src/textures/texture_library.cpp. *)
From Coq Require Import String.
From Verif Require Import Common.
Local Open Scope N_scope.

(* Objects are numbered by their address; [freed] lists the freed ones, last one
   first.  Freeing an object twice is undefined. *)
Definition delete (p : N) (freed : list N) : res (list N) :=
  if existsb (N.eqb p) freed then UB else Ok (p :: freed).

Fixpoint deletes (l freed : list N) : res (list N) :=
  match l with
  | [] => Ok freed
  | p :: l => let! freed := delete p freed in deletes l freed
  end.

(* std::unordered_map<std::string, T*>: the stored pairs *)
Definition smap := list (string * N).

Fixpoint lookup (m : smap) (k : string) : option N :=
  match m with
  | [] => None
  | (k', v) :: m => if String.eqb k' k then Some v else lookup m k
  end.

(* unordered_map::insert: a key that is present keeps its value *)
Definition insert (m : smap) (k : string) (v : N) : smap :=
  match lookup m k with Some _ => m | None => (k, v) :: m end.

Definition remove_key (m : smap) (k : string) : smap :=
  filter (fun p => negb (String.eqb (fst p) k)) m.

(* texture_library.cpp:63-71 and 73-81, and the inner part of
   material_library.cpp:36-45 *)
Definition erase_key (m : smap) (freed : list N) (k : string) : res (smap * list N) :=
  match lookup m k with
  | None => Ok (m, freed)
  | Some p => let! freed := delete p freed in Ok (remove_key m k, freed)
  end.

(* ---- material library ---- *)

Record mtllib := mk_mtllib { ml_lib : smap; ml_default : N; ml_freed : list N }.

Definition default_name : string := "Default"%string.

(* material_library.cpp:6-10; [d] is the address of the default material *)
Definition mtl_new (d : N) : mtllib := mk_mtllib [(default_name, d)] d [].

Inductive mtl_op :=
| MAdd (name : string) (p : N)
| MErase (name : string)
| MClear.

(* material_library.cpp:17-20, 34-46, 48-62.  In clear, find("Default") is
   dereferenced without a check. *)
Definition mtl_step (l : mtllib) (o : mtl_op) : res mtllib :=
  match o with
  | MAdd k p => Ok (mk_mtllib (insert (ml_lib l) k p) (ml_default l) (ml_freed l))
  | MErase k =>
    if String.eqb k default_name then Ok l
    else
      let! (m, f) := erase_key (ml_lib l) (ml_freed l) k in
      Ok (mk_mtllib m (ml_default l) f)
  | MClear =>
    match lookup (ml_lib l) default_name with
    | None => UB
    | Some d =>
      let! f := deletes (map snd (remove_key (ml_lib l) default_name)) (ml_freed l) in
      Ok (mk_mtllib (insert [] default_name d) (ml_default l) f)
    end
  end.

Fixpoint mtl_run (l : mtllib) (ops : list mtl_op) : res mtllib :=
  match ops with
  | [] => Ok l
  | o :: ops => let! l := mtl_step l o in mtl_run l ops
  end.

(* material_library.cpp:22-32 (None is NULL), 64-69, 71-74 *)
Definition mtl_get (l : mtllib) (k : string) : option N := lookup (ml_lib l) k.
Definition mtl_contains (l : mtllib) (k : string) : bool :=
  match lookup (ml_lib l) k with Some _ => true | None => false end.
Definition mtl_get_default (l : mtllib) : N := ml_default l.

(* ---- texture library ---- *)

Record texlib := mk_texlib {
  tl_tex : smap;
  tl_maps : smap;
  tl_unref : list N;
  tl_dflt : N * N * N;   (* default texture, image texture and map *)
  tl_freed : list N }.

(* texture_library.cpp:7-15; the default objects are created by the library and are
   not in the maps *)
Definition tex_new (d : N * N * N) : texlib := mk_texlib [] [] [] d [].

Inductive tex_op :=
| TAddTexture (name : string) (p : N)
| TAddUnnamed (p : N)
| TAddMap (name : string) (p : N)
| TEraseTexture (name : string)
| TEraseMap (name : string)
| TClear.

(* texture_library.cpp:25-39, 63-81, 83-96 *)
Definition tex_step (l : texlib) (o : tex_op) : res texlib :=
  match o with
  | TAddTexture k p => Ok (mk_texlib (insert (tl_tex l) k p) (tl_maps l) (tl_unref l) (tl_dflt l) (tl_freed l))
  | TAddUnnamed p => Ok (mk_texlib (tl_tex l) (tl_maps l) (tl_unref l ++ [p]) (tl_dflt l) (tl_freed l))
  | TAddMap k p => Ok (mk_texlib (tl_tex l) (insert (tl_maps l) k p) (tl_unref l) (tl_dflt l) (tl_freed l))
  | TEraseTexture k =>
    let! (m, f) := erase_key (tl_tex l) (tl_freed l) k in
    Ok (mk_texlib m (tl_maps l) (tl_unref l) (tl_dflt l) f)
  | TEraseMap k =>
    let! (m, f) := erase_key (tl_maps l) (tl_freed l) k in
    Ok (mk_texlib (tl_tex l) m (tl_unref l) (tl_dflt l) f)
  | TClear =>
    let! f := deletes (map snd (tl_tex l)) (tl_freed l) in
    let! f := deletes (map snd (tl_maps l)) f in
    let! f := deletes (tl_unref l) f in
    Ok (mk_texlib [] [] [] (tl_dflt l) f)
  end.

Fixpoint tex_run (l : texlib) (ops : list tex_op) : res texlib :=
  match ops with
  | [] => Ok l
  | o :: ops => let! l := tex_step l o in tex_run l ops
  end.

(* texture_library.cpp:41-61, 98-108 *)
Definition tex_get (l : texlib) (k : string) : option N := lookup (tl_tex l) k.
Definition tex_get_map (l : texlib) (k : string) : option N := lookup (tl_maps l) k.
Definition tex_contains (l : texlib) (k : string) : bool :=
  match lookup (tl_tex l) k with Some _ => true | None => false end.
Definition tex_contains_map (l : texlib) (k : string) : bool :=
  match lookup (tl_maps l) k with Some _ => true | None => false end.

(* texture_library.cpp:17-23: the destructor; the result lists what was freed *)
Definition tex_destroy (l : texlib) : res (list N) :=
  let! l := tex_step l TClear in
  let '(t, i, m) := tl_dflt l in
  deletes [m; i; t] (tl_freed l).
