(* src/parsers/config_driver.cpp:297-520, the materials, and 565-693 with 98-118, the objects:
   what is built once all files are read.  Numbers are rational. *)
From Coq Require Import QArith Qround Qminmax.
From Verif Require Import Common PathModel MaskModel DriverModel.
Local Open Scope nat_scope.

(* ---- descriptions of materials ---- *)

(* config_driver.hpp mat_t, microfacet.hpp SPECTRE_DIST_* *)
Inductive mtype := Matte | Glossy | Glass | Metal.
Inductive dkind := KBlinn | KBeckmann | KGgx.
(* config_parser.y:263-266: the spectrum computed from the index is not modelled *)
Inductive ior := Cauchy (b c d : Q) | Sellmeier (b c : v3).

(* config_driver.hpp:76-130 ParsedMaterial *)
Record pmat := mk_pmat {
  pt_name : text; pt_elem : nat; pt_type : mtype; pt_ior : ior; pt_rx : Q; pt_ry : Q; pt_dist : dkind;
  pt_diffuse : text; pt_diffuse_u : option (Z * Z * Z); pt_specular : text; pt_specular_u : option (Z * Z * Z);
  pt_bump : text }.
(* config_driver.cpp:9-22; gold is METAL_GOLD, 2 (metals.hpp) *)
Definition new_mat : pmat :=
  mk_pmat [] 2 Matte (Cauchy (145 # 100) 0 0) 0%Q (-1)%Q KBeckmann [] None [] None [].

(* config_driver.cpp:249-259: the clamp and the conversion to bytes *)
Definition to_byte (q : Q) : Z := Qfloor (Qmin 255 (Qmax 0 q)).
Definition to_rgb (v : v3) : Z * Z * Z := let '(r, g, b) := v in (to_byte r, to_byte g, to_byte b).

Inductive matkey :=
| MType (t : mtype) | MIor (i : ior) | MRough (q : Q) | MAniso (q : Q) | MDist (d : dkind)
| MDiffuse (s : text) | MDiffuseU (v : v3) | MSpecular (s : text) | MSpecularU (v : v3)
| MNormal (s : text) | MElem (n : nat).

(* config_parser.y:257-280 *)
Definition set_mat (m : pmat) (k : matkey) : pmat :=
  let '(mk_pmat n e t i x y d df du sp su bu) := m in
  match k with
  | MType t => mk_pmat n e t i x y d df du sp su bu
  | MIor i => mk_pmat n e t i x y d df du sp su bu
  | MRough x => mk_pmat n e t i x y d df du sp su bu
  | MAniso y => mk_pmat n e t i x y d df du sp su bu
  | MDist d => mk_pmat n e t i x y d df du sp su bu
  | MDiffuse df => mk_pmat n e t i x y d df du sp su bu
  | MDiffuseU v => mk_pmat n e t i x y d df (Some (to_rgb v)) sp su bu
  | MSpecular sp => mk_pmat n e t i x y d df du sp su bu
  | MSpecularU v => mk_pmat n e t i x y d df du sp (Some (to_rgb v)) bu
  | MNormal bu => mk_pmat n e t i x y d df du sp su bu
  | MElem e => mk_pmat n e t i x y d df du sp su bu
  end.
(* config_parser.y:173 and 250-255: the name is stored when the object ends *)
Definition parsed_mat (n : text) (keys : list matkey) : pmat :=
  let '(mk_pmat _ e t i x y d df du sp su bu) := fold_left set_mat keys new_mat in
  mk_pmat n e t i x y d df du sp su bu.

(* ---- materials ---- *)

(* what a material looks up: an image, an uniform colour, or the default white image *)
Inductive tex := TxWhite | TxUniform (rgb : Z * Z * Z) | TxImage (t : texture).
Definition tex_of (o : option texture) : tex := match o with Some t => TxImage t | None => TxWhite end.

(* microfacet.hpp: the distributions with the arguments of their constructors *)
Inductive dist := Blinn (e : Q) | Beckmann (r : Q) | GgxIso (r : Q) | GgxAniso (x y : Q).
Inductive fresnel := FDielectric (i : ior) | FConductor (elem : nat).
Inductive layer :=
| LLambert | LOrenNayar (sigma : Q)
| LMicroR (d : dist) (f : fresnel) | LMicroT (d : dist) (i : ior)
| LMirror (f : fresnel) | LRefraction (i : ior).
(* bump.hpp: None is the class Bump, which changes nothing *)
Record material := mk_material { m_layers : list (layer * tex); m_bump : option tex }.

(* config_driver.cpp:7 *)
Definition min_roughness : Q := 1 # 1000.
(* utility.hpp clamp *)
Definition clampq (v lo hi : Q) : Q := if Qlt_le_dec v lo then lo else if Qlt_le_dec hi v then hi else v.

(* config_driver.cpp:400-408, 432-449, 472-477 *)
Definition isotropic (d : dkind) (r : Q) : dist :=
  match d with KBlinn => Blinn (2 / (r * r) - 2)%Q | KBeckmann => Beckmann r | KGgx => GgxIso r end.

(* config_driver.cpp:362-372: rough_x and rough_y, -1 if isotropic *)
Definition adjust (x y : Q) : Q * Q :=
  let x := clampq x 0 1 in
  let y := if Qeq_bool y x then (-1)%Q else y in
  if Qeq_bool y (-1) then (x, (-1)%Q) else (clampq x min_roughness 1, clampq y min_roughness 1).

(* config_driver.cpp:374-490; cauchy(1.5f,0) is the glossy coat *)
Definition layers (t : mtype) (e : nat) (i : ior) (d : dkind) (x y : Q) (diffuse specular : tex) : list (layer * tex) :=
  let '(x, y) := adjust x y in
  match t with
  | Matte => [((if Qeq_bool x 0 then LLambert else LOrenNayar (x * 100)), diffuse)]
  | Glossy =>
    let x := if Qeq_bool x 0 then min_roughness else x in
    let di := if Qeq_bool y (-1) then isotropic d x else GgxAniso x y in
    [(LLambert, diffuse); (LMicroR di (FDielectric (Cauchy (3 # 2) 0 0)), specular)]
  | Glass =>
    if (Qeq_bool x 0 && Qeq_bool y (-1))%bool then [(LRefraction i, diffuse); (LMirror (FDielectric i), specular)]
    else
      let di := if Qeq_bool y (-1) then isotropic d x else GgxAniso x y in
      [(LMicroT di i, diffuse); (LMicroR di (FDielectric i), specular)]
  | Metal =>
    if (Qeq_bool x 0 && Qeq_bool y (-1))%bool then [(LMirror (FConductor e), TxWhite)]
    else
      let di := if (negb (Qeq_bool x 0) && negb (Qeq_bool y (-1)))%bool then GgxAniso x y else isotropic d x in
      [(LMicroR di (FConductor e), TxWhite)]
  end.

(* ---- the libraries ---- *)
Section Build.
Context (cwd : text) (usable : text -> bool) (dir : file) (kind : tex_kind).

(* config_driver.cpp:313-338 *)
Definition choose (lib : texlib) (u : option (Z * Z * Z)) (s : text) : res (texlib * tex) :=
  match u with
  | Some c => Ok (lib, TxUniform c)
  | None =>
    match s with
    | [] => Ok (lib, TxWhite)
    | _ => let! (lib, t) := load_texture cwd usable dir lib new_tex kind s in Ok (lib, tex_of t)
    end
  end.

(* config_driver.cpp:312-490 *)
Definition build_material (lib : texlib) (m : pmat) : res (texlib * material) :=
  let! (lib, diffuse) := choose lib (pt_diffuse_u m) (pt_diffuse m) in
  let! (lib, specular) := choose lib (pt_specular_u m) (pt_specular m) in
  let! (lib, bump) :=
    match pt_bump m with
    | [] => Ok (lib, None)
    | s => let! (lib, t) := load_texture cwd usable dir lib new_tex kind s in Ok (lib, Some (tex_of t))
    end in
  Ok (lib, mk_material (layers (pt_type m) (pt_elem m) (pt_ior m) (pt_dist m) (pt_rx m) (pt_ry m) diffuse specular) bump).

(* material_library.cpp: names and materials.  A dual material holds its two materials and its
   mask.  insert keeps what is there. *)
Inductive bsdf_obj := OMaterial (m : material) | ODual (a b : bsdf_obj) (t : option tex) (c : chan) (inv : bool).
Definition matlib := list (text * bsdf_obj).
Fixpoint find_mat (l : matlib) (n : text) : option bsdf_obj :=
  match l with [] => None | (k, m) :: l => if text_dec k n then Some m else find_mat l n end.
Definition add_mat (l : matlib) (n : text) (m : bsdf_obj) : matlib :=
  match find_mat l n with Some _ => l | None => l ++ [(n, m)] end.
(* material_library.cpp:6-10 *)
Definition default_mat : bsdf_obj := OMaterial (mk_material [(LLambert, TxWhite)] None).
Definition new_matlib : matlib := [(String.list_ascii_of_string "Default", default_mat)].

(* config_driver.cpp:297-496 *)
Fixpoint build_materials (lib : texlib) (mats : matlib) (l : list pmat) : res (texlib * matlib) :=
  match l with
  | [] => Ok (lib, mats)
  | m :: l =>
    match find_mat mats (pt_name m) with
    | Some _ => build_materials lib mats l
    | None =>
      let! (lib, b) := build_material lib m in
      build_materials lib (add_mat mats (pt_name m) (OMaterial b)) l
    end
  end.

(* config_driver.hpp ParsedDualMaterial *)
Record pdual := mk_pdual { pu_name : text; pu_first : text; pu_second : text; pu_mask : pmask }.

Definition get_or_default (mats : matlib) (n : text) : bsdf_obj :=
  match find_mat mats n with Some m => m | None => default_mat end.

(* config_driver.cpp:498-520 *)
Fixpoint build_duals (lib : texlib) (mats : matlib) (l : list pdual) : res (texlib * matlib) :=
  match l with
  | [] => Ok (lib, mats)
  | d :: l =>
    let first := get_or_default mats (pu_first d) in
    let second := get_or_default mats (pu_second d) in
    let! (lib, t) :=
      match pm_tex (pu_mask d) with
      | [] => Ok (lib, None)
      | s => let! (lib, t) := load_texture cwd usable dir lib new_tex kind s in Ok (lib, Some (tex_of t))
      end in
    build_duals lib (add_mat mats (pu_name d) (ODual first second t (pm_chn (pu_mask d)) (pm_inv (pu_mask d)))) l
  end.
End Build.

(* ---- objects ---- *)

(* a mesh made from an obj file; the materials that the file gives it *)
Record parsed_mesh := mk_mesh { ms_id : nat; ms_name : text; ms_materials : list bsdf_obj }.

(* config_driver.cpp:536-563: the map from names to meshes and the meshes deleted as duplicates *)
Fixpoint find_mesh (l : list parsed_mesh) (n : text) : option parsed_mesh :=
  match l with [] => None | m :: l => if text_dec (ms_name m) n then Some m else find_mesh l n end.
Fixpoint allocate (shapes : list parsed_mesh) (l : list parsed_mesh) : list parsed_mesh * list nat :=
  match l with
  | [] => (shapes, [])
  | m :: l =>
    match find_mesh shapes (ms_name m) with
    | None => allocate (shapes ++ [m]) l
    | Some _ => let '(s, del) := allocate shapes l in (s, ms_id m :: del)
    end
  end.

(* the shape of an asset: the built-in sphere or a mesh *)
Inductive shape_of := SSphere | SMesh (id : nat).
(* an asset or a light of the scene, with its shape, materials and description *)
Record placed_obj := mk_obj { ob_shape : shape_of; ob_materials : list bsdf_obj; ob_desc : pmesh }.

Definition sphere_name : text := String.list_ascii_of_string "Sphere".

(* config_driver.cpp:565-693: the objects in the order in which they enter the scene, and
   used_shapes *)
Definition build_object (mats : matlib) (shapes : list parsed_mesh) (w : pmesh) : option placed_obj :=
  let found :=
    if text_dec (me_name w) sphere_name then Some (SSphere, [default_mat])
    else match find_mesh shapes (me_name w) with
         | Some m => Some (SMesh (ms_id m), ms_materials m)
         | None => None
         end in
  match found with
  | None => None
  | Some (s, ms) =>
    let ms :=
      if me_light w then [default_mat]
      else match me_material w with [] => ms | n => [get_or_default mats n] end in
    Some (mk_obj s ms w)
  end.
Fixpoint build_objects (mats : matlib) (shapes : list parsed_mesh) (l : list pmesh) : list placed_obj * list text :=
  match l with
  | [] => ([], [])
  | w :: l =>
    let '(obs, used) := build_objects mats shapes l in
    match build_object mats shapes w with
    | None => (obs, used)
    | Some o => (o :: obs, match ob_shape o with SSphere => used | SMesh _ => me_name w :: used end)
    end
  end.
(* deferred_meshes.back() and pop_back() *)
Definition build_meshes (mats : matlib) (shapes : list parsed_mesh) (l : list pmesh) := build_objects mats shapes (rev l).

(* config_driver.cpp:102-118: the meshes deleted and those given to the scene *)
Definition clean_up (shapes : list parsed_mesh) (used : list text) : list nat * list nat :=
  (map ms_id (filter (fun m => if in_dec text_dec (ms_name m) used then false else true) shapes),
   map ms_id (filter (fun m => if in_dec text_dec (ms_name m) used then true else false) shapes)).

(* the whole of the last steps of parse(): the objects, the meshes deleted and the meshes kept *)
Definition place (mats : matlib) (meshes : list parsed_mesh) (l : list pmesh) : list placed_obj * list nat * list nat :=
  let '(shapes, dup) := allocate [] meshes in
  let '(obs, used) := build_meshes mats shapes l in
  let '(del, kept) := clean_up shapes used in
  (obs, dup ++ del, kept).

(* malloc of the arrays of materials and associations (config_driver.cpp:545-547, 601-605) and
   their free (113-114): how many of each *)
Definition arrays_allocated (meshes : list parsed_mesh) (l : list pmesh) : nat :=
  length meshes + length (filter (fun w => if text_dec (me_name w) sphere_name then true else false) l).
Definition arrays_freed (meshes : list parsed_mesh) : nat := length (fst (allocate [] meshes)).
