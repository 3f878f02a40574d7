(* Model of src/utility/scene.cpp and of the identifier pools of
   src/primitives/shape.cpp and src/primitives/asset.cpp. *)
From Verif Require Import Common KdAddModel.
Local Open Scope N_scope.

(* shape.cpp:6-13 and asset.cpp:6-10: identifiers are handed out in creation order
   by a static unsigned counter that starts from 1.  An object is represented by
   the number n >= 1 of objects of its kind created up to it; its identifier is
   that number modulo 2^32. *)
Definition obj_id (n : N) : N := u32 n.

(* std::unordered_map<unsigned, T*>: the stored pairs, in no particular order *)
Definition idmap := list (N * N).

Fixpoint find_id (m : idmap) (k : N) : option N :=
  match m with
  | [] => None
  | (k', v) :: m => if k' =? k then Some v else find_id m k
  end.

(* unordered_map::insert: keeps the old value of a key that is present; the
   second component tells whether the pair was added *)
Definition insert_id (m : idmap) (k v : N) : idmap * bool :=
  match find_id m k with
  | Some _ => (m, false)
  | None => ((k, v) :: m, true)
  end.

(* settings.h: _MAX_LIGHTS_ *)
Definition max_lights : nat := 32.

(* scene.hpp:60,117-121 *)
Record scene := mk_scene {
  sc_shapes : idmap;
  sc_assets : idmap;
  sc_lights : list N;
  sc_kd : kdbuf N }.

Definition scene_new : scene := mk_scene [] [] [] kd_empty.

Inductive scene_op :=
| InheritShape (n : N)
| InheritAsset (n : N)
| InheritLight (n : N).

(* scene.cpp:23-27, 34-39, 46-60.  A light is an asset: both are numbered by the
   same pool. *)
Definition scene_step (s : scene) (o : scene_op) : res scene :=
  match o with
  | InheritShape n =>
    let '(m, _) := insert_id (sc_shapes s) (obj_id n) n in
    Ok (mk_scene m (sc_assets s) (sc_lights s) (sc_kd s))
  | InheritAsset n =>
    let '(m, _) := insert_id (sc_assets s) (obj_id n) n in
    let! k := addAsset (sc_kd s) n in
    Ok (mk_scene (sc_shapes s) m (sc_lights s) k)
  | InheritLight n =>
    if (length (sc_lights s) <? max_lights)%nat then
      let '(m, added) := insert_id (sc_assets s) (obj_id n) n in
      if added then
        let! k := addAsset (sc_kd s) n in
        Ok (mk_scene (sc_shapes s) m (sc_lights s ++ [n]) k)
      else Ok (mk_scene (sc_shapes s) m (sc_lights s) (sc_kd s))
    else Ok s
  end.

Fixpoint scene_run (s : scene) (ops : list scene_op) : res scene :=
  match ops with
  | [] => Ok s
  | o :: ops => let! s := scene_step s o in scene_run s ops
  end.

(* scene.cpp:29-32, 41-44, 62-65: the casts to unsigned int are omitted, the maps
   have at most 2^32 keys and are smaller than that in every bounded run *)
Definition size_shapes (s : scene) : nat := length (sc_shapes s).
Definition size_assets (s : scene) : nat := length (sc_assets s).
Definition size_lights (s : scene) : nat := length (sc_lights s).
(* scene.cpp:67-70: no bounds check *)
Definition get_light (s : scene) (i : nat) : res N :=
  match nth_error (sc_lights s) i with Some l => Ok l | None => UB end.

(* Freeing a list of objects: [freed] are the ones freed so far, freeing one of
   them again is undefined. *)
Fixpoint delete_all (l freed : list N) : res (list N) :=
  match l with
  | [] => Ok freed
  | n :: l => if existsb (N.eqb n) freed then UB else delete_all l (n :: freed)
  end.

(* scene.cpp:6-21: the shapes and the assets freed by the destructor *)
Definition scene_delete (s : scene) : res (list N * list N) :=
  let! fs := delete_all (map snd (sc_shapes s)) [] in
  let! fa := delete_all (map snd (sc_assets s)) [] in
  Ok (fs, fa).
