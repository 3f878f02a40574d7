(* src/parsers/config_driver.cpp with the actions of config_parser.y: what a configuration
   file and its children do, from their statements in order.  The scanner and the grammar are
   in ScanModel.v and GramModel.v: here a file is the list of its statements; a file that does not
   parse ends the program (console.cpp:126-141).  Numbers are rational. *)
From Coq Require Import QArith.
From Verif Require Import Common PathModel MaskModel.
Local Open Scope nat_scope.

Definition text := list ascii.
Definition text_dec : forall a b : text, {a = b} + {a <> b} := list_eq_dec ascii_dec.
Definition v3 := (Q * Q * Q)%type.

(* ---- descriptions ---- *)

Inductive chan := CRed | CGreen | CBlue | CAlpha.
Inductive attribute := AChannel (c : chan) | AInverted.
(* config_driver.hpp ParsedMask and config_driver.cpp:706-710 *)
Record pmask := mk_pmask { pm_tex : text; pm_chn : chan; pm_inv : bool }.
Definition no_mask : pmask := mk_pmask [] CAlpha false.

(* config_driver.hpp MeshWorld *)
Record pmesh := mk_pmesh {
  me_name : text; me_material : text; me_position : v3; me_rotation : v3; me_scale : v3;
  me_light : bool; me_temperature : Z; me_color : v3; me_mask : pmask }.
Definition new_mesh : pmesh :=
  mk_pmesh [] [] (0, 0, 0)%Q (0, 0, 0)%Q (1, 1, 1)%Q false (-1)%Z (255, 255, 255)%Q no_mask.

(* the keys of a world or light object *)
Inductive mkey :=
| KName (s : text)
| KPosition (v : v3)
| KRotation (v : v3)
| KScale (v : v3)
| KScale1 (q : Q)
| KMaterial (s : text)
| KMask (s : text) (l : list attribute)
| KTemperature (t : Z)
| KColor (v : v3).

(* config_parser.y attribute: the attributes are read before the mask they follow is stored *)
Definition set_attribute (m : pmask) (a : attribute) : pmask :=
  match a with
  | AChannel c => mk_pmask (pm_tex m) c (pm_inv m)
  | AInverted => mk_pmask (pm_tex m) (pm_chn m) true
  end.

(* config_parser.y world_name, world_stmt, light_stmt: cur_mesh and cur_mask *)
Definition set_key (st : pmesh * pmask) (k : mkey) : pmesh * pmask :=
  let '(m, c) := st in
  match k with
  | KName s => (mk_pmesh s (me_material m) (me_position m) (me_rotation m) (me_scale m) (me_light m) (me_temperature m) (me_color m) (me_mask m), c)
  | KMaterial s => (mk_pmesh (me_name m) s (me_position m) (me_rotation m) (me_scale m) (me_light m) (me_temperature m) (me_color m) (me_mask m), c)
  | KPosition v => (mk_pmesh (me_name m) (me_material m) v (me_rotation m) (me_scale m) (me_light m) (me_temperature m) (me_color m) (me_mask m), c)
  | KRotation v => (mk_pmesh (me_name m) (me_material m) (me_position m) v (me_scale m) (me_light m) (me_temperature m) (me_color m) (me_mask m), c)
  | KScale v => (mk_pmesh (me_name m) (me_material m) (me_position m) (me_rotation m) v (me_light m) (me_temperature m) (me_color m) (me_mask m), c)
  | KScale1 q => (mk_pmesh (me_name m) (me_material m) (me_position m) (me_rotation m) (q, q, q) (me_light m) (me_temperature m) (me_color m) (me_mask m), c)
  | KTemperature t => (mk_pmesh (me_name m) (me_material m) (me_position m) (me_rotation m) (me_scale m) (me_light m) t (me_color m) (me_mask m), c)
  | KColor v => (mk_pmesh (me_name m) (me_material m) (me_position m) (me_rotation m) (me_scale m) (me_light m) (me_temperature m) v (me_mask m), c)
  | KMask s l =>
    let c := fold_left set_attribute l c in
    (mk_pmesh (me_name m) (me_material m) (me_position m) (me_rotation m) (me_scale m) (me_light m) (me_temperature m) (me_color m)
              (mk_pmask s (pm_chn c) (pm_inv c)), no_mask)
  end.
Definition set_light (m : pmesh) : pmesh :=
  mk_pmesh (me_name m) (me_material m) (me_position m) (me_rotation m) (me_scale m) true (me_temperature m) (me_color m) (me_mask m).

(* ---- settings ---- *)

Inductive filter_kind := FBox | FTent | FGauss | FMitchell | FLanczos.
Inductive camera_kind := KPerspective | KOrthographic | KPanorama.
Inductive tex_kind := TUnfiltered | TTrilinear | TEwa.

(* the members of ConfigDriver that parse() hands to the renderer *)
Record settings := mk_settings {
  st_output : text; st_width : Z; st_height : Z; st_spp : Z; st_stratified : bool;
  st_filter : filter_kind; st_value0 : Q; st_value1 : Q;
  st_camera : camera_kind; st_position : v3; st_target : v3; st_up : v3; st_fov : Q }.

Inductive setting :=
| SetOutput (s : text)
| SetWidth (w : Z)
| SetHeight (h : Z)
| SetSpp (n : Z)
| SetStratified (b : bool)
| SetFilter (k : filter_kind)
| SetValue0 (q : Q)
| SetValue1 (q : Q)
| SetCamera (k : camera_kind)
| SetPosition (v : v3)
| SetTarget (v : v3)
| SetUp (v : v3)
| SetFov (q : Q).

(* config_driver.cpp:24-43 *)
Definition default_settings : settings :=
  mk_settings ["o"; "u"; "t"; "."; "p"; "p"; "m"]%char 800 600 121 true FMitchell (33 # 100) (33 # 100)
    KPerspective (0, 0, 0)%Q (0, 0, 1)%Q (0, 1, 0)%Q 55.

(* config_parser.y stmt, resolution_stmt, filter_stmt, camera_stmt *)
Definition set_setting (s : settings) (x : setting) : settings :=
  let '(mk_settings o w h n b f v0 v1 c p t u a) := s in
  match x with
  | SetOutput o => mk_settings o w h n b f v0 v1 c p t u a
  | SetWidth w => mk_settings o w h n b f v0 v1 c p t u a
  | SetHeight h => mk_settings o w h n b f v0 v1 c p t u a
  | SetSpp n => mk_settings o w h n b f v0 v1 c p t u a
  | SetStratified b => mk_settings o w h n b f v0 v1 c p t u a
  | SetFilter f => mk_settings o w h n b f v0 v1 c p t u a
  | SetValue0 v0 => mk_settings o w h n b f v0 v1 c p t u a
  | SetValue1 v1 => mk_settings o w h n b f v0 v1 c p t u a
  | SetCamera c => mk_settings o w h n b f v0 v1 c p t u a
  | SetPosition p => mk_settings o w h n b f v0 v1 c p t u a
  | SetTarget t => mk_settings o w h n b f v0 v1 c p t u a
  | SetUp u => mk_settings o w h n b f v0 v1 c p t u a
  | SetFov a => mk_settings o w h n b f v0 v1 c p t u a
  end.

(* ---- textures ---- *)

(* a loaded texture: the path of its image and what it was loaded with *)
Record texture := mk_texture { tx_path : text; tx_scale : Q * Q; tx_shift : Q * Q; tx_kind : tex_kind }.
(* texture_library.cpp texlib: std::unordered_map::insert keeps what is there *)
Definition texlib := list (text * texture).
Fixpoint find_texture (l : texlib) (n : text) : option texture :=
  match l with
  | [] => None
  | (k, t) :: l => if text_dec k n then Some t else find_texture l n
  end.

Inductive tkey := TName (s : text) | TScale (q : Q * Q) | TShift (q : Q * Q).
(* config_parser.y texture_stmt: tex_name, tex_scale, tex_shift *)
Definition tex_state := (text * (Q * Q) * (Q * Q))%type.
Definition new_tex : tex_state := ([], (1, 1)%Q, (0, 0)%Q).
Definition set_tex (s : tex_state) (k : tkey) : tex_state :=
  let '(n, c, h) := s in
  match k with TName n => (n, c, h) | TScale c => (n, c, h) | TShift h => (n, c, h) end.

(* file.cpp is_absolute, without Windows *)
Definition is_absolute (p : text) : bool :=
  match p with c :: _ => (c =? slash)%char | [] => false end.

(* config_driver.cpp:262-272 and 498-505: a path of the configuration; [dir] is current_dir *)
Definition locate (cwd : text) (dir : file) (path : text) : res file :=
  if is_absolute path then file_new cwd path
  else let! f := file_copy dir in file_append f path.

(* config_driver.cpp:259-295; [usable] is exists, readable, not a folder and img_valid, by
   absolute path.  None is the default texture. *)
Definition load_texture (cwd : text) (usable : text -> bool) (dir : file) (lib : texlib) (s : tex_state)
    (kind : tex_kind) (path : text) : res (texlib * option texture) :=
  let '(n, c, h) := s in
  let! f := locate cwd dir path in
  let! n := match n with [] => file_filename f | _ => Ok n end in
  match find_texture lib n with
  | Some t => Ok (lib, Some t)
  | None =>
    let! a := file_absolute f in
    if usable a then let t := mk_texture a c h kind in Ok (lib ++ [(n, t)], Some t) else Ok (lib, None)
  end.

(* ---- statements ---- *)

(* materials are described in BuildModel.v: here any type of them *)
Section Parse.
Context {mat dualmat : Type}.

Inductive stmt :=
| Setting (x : setting)
| TextureFilter (k : tex_kind)
| Texture (keys : list tkey) (src : text)
| Shape (path : text)
| World (name : text) (keys : list mkey)
| Light (name : text) (keys : list mkey)
| Material (m : mat)
| Dual (m : dualmat)
| Child (path : text).

(* the driver between two statements *)
Record driver := mk_driver {
  d_settings : settings; d_kind : tex_kind; d_lib : texlib; d_tex : tex_state;
  d_mesh : pmesh; d_mask : pmask;
  d_shapes : list text; d_meshes : list pmesh; d_mats : list mat; d_duals : list dualmat;
  d_children : list text }.

(* config_driver.cpp:24-43; cur_mesh, cur_mask and the vectors as their constructors leave them *)
Definition new_driver : driver :=
  mk_driver default_settings TTrilinear [] new_tex new_mesh no_mask [] [] [] [] [].

(* config_parser.y stmt *)
Definition exec (cwd : text) (usable : text -> bool) (dir : file) (d : driver) (s : stmt) : res driver :=
  let '(mk_driver st kd lib tx me ma sh ms mt du ch) := d in
  match s with
  | Setting x => Ok (mk_driver (set_setting st x) kd lib tx me ma sh ms mt du ch)
  | TextureFilter k => Ok (mk_driver st k lib tx me ma sh ms mt du ch)
  | Texture keys src =>
    let tx := fold_left set_tex keys tx in
    let! (lib, _) := load_texture cwd usable dir lib tx kd src in
    Ok (mk_driver st kd lib new_tex me ma sh ms mt du ch)
  | Shape p => Ok (mk_driver st kd lib tx me ma (sh ++ [p]) ms mt du ch)
  | World n keys =>
    let '(me, ma) := fold_left set_key (KName n :: keys) (me, ma) in
    Ok (mk_driver st kd lib tx new_mesh ma sh (ms ++ [me]) mt du ch)
  | Light n keys =>
    let '(me, ma) := fold_left set_key (KName n :: keys) (me, ma) in
    Ok (mk_driver st kd lib tx new_mesh ma sh (ms ++ [set_light me]) mt du ch)
  | Material m => Ok (mk_driver st kd lib tx me ma sh ms (mt ++ [m]) du ch)
  | Dual m => Ok (mk_driver st kd lib tx me ma sh ms mt (du ++ [m]) ch)
  | Child p => Ok (mk_driver st kd lib tx me ma sh ms mt du (ch ++ [p]))
  end.

Fixpoint exec_all (cwd : text) (usable : text -> bool) (dir : file) (d : driver) (l : list stmt) : res driver :=
  match l with
  | [] => Ok d
  | s :: l => let! d := exec cwd usable dir d s in exec_all cwd usable dir d l
  end.

(* config_driver.cpp:76-78: the file of a child, and current_dir afterwards: File::append
   changes the object it is called on (file.cpp:290) *)
Definition open_child (cwd : text) (dir : file) (c : text) : res (file * file) :=
  if is_absolute c then let! f := file_new cwd c in Ok (f, dir)
  else let! d := file_append dir c in let! f := file_copy d in Ok (f, d).

(* config_driver.cpp:74-91; [content] is what the file at a path contains, None if it does not
   exist.  The result lists the paths of the children too. *)
Fixpoint run_children (cwd : text) (usable : text -> bool) (content : text -> option (list stmt)) (dir : file)
    (d : driver) (cs : list text) : res (driver * file * list text) :=
  match cs with
  | [] => Ok (d, dir, [])
  | c :: cs =>
    let! (f, dir) := open_child cwd dir c in
    let! a := file_absolute f in
    let! d := match content a with Some l => exec_all cwd usable dir d l | None => Ok d end in
    let! (d, dir, paths) := run_children cwd usable content dir d cs in
    Ok (d, dir, a :: paths)
  end.

(* what parse() has after reading all files: the settings given to the renderer, the driver,
   current_dir and the paths of the children *)
Record parsed := mk_parsed { pa_settings : settings; pa_driver : driver; pa_dir : file; pa_children : list text }.

(* config_driver.cpp:45-95; the checks of resolution and samples are in ConfigModel.v *)
Definition parse (cwd : text) (usable : text -> bool) (content : text -> option (list stmt)) (main : text)
    (body : list stmt) : res parsed :=
  let! f := file_new cwd main in
  let! p := file_parent f in
  let! dir := file_copy p in
  let! d := exec_all cwd usable dir new_driver body in
  let chosen := d_settings d in
  let cs := d_children d in
  let d := mk_driver (d_settings d) (d_kind d) (d_lib d) (d_tex d) (d_mesh d) (d_mask d)
                     (d_shapes d) (d_meshes d) (d_mats d) (d_duals d) [] in
  let! (d, dir, paths) := run_children cwd usable content dir d cs in
  Ok (mk_parsed chosen d dir paths).
End Parse.
Arguments stmt : clear implicits.
Arguments driver : clear implicits.
Arguments parsed : clear implicits.

(* ---- masks ---- *)

(* config_driver.hpp mask_chn is an ImageChannel *)
Definition image_channel (c : chan) : channel :=
  match c with CAlpha => Alpha | CRed => Red | CGreen => Green | CBlue => Blue end.

(* config_driver.cpp:695-705; [image] gives the texel of a texture at a hit.  The default texture
   is one white opaque pixel (texture_library.cpp:9-16). *)
Definition build_mask {H} (image : texture -> H -> N) (cwd : text) (usable : text -> bool) (dir : file)
    (lib : texlib) (kind : tex_kind) (m : pmask) : res (texlib * mask H) :=
  match pm_tex m with
  | [] => Ok (lib, mk_mask None (image_channel (pm_chn m)) (pm_inv m))
  | s =>
    let! (lib, t) := load_texture cwd usable dir lib new_tex kind s in
    let f := match t with Some t => image t | None => fun _ => 4294967295%N end in
    Ok (lib, mk_mask (Some f) (image_channel (pm_chn m)) (pm_inv m))
  end.
