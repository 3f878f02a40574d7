(* What a configuration means, after src/parsers/README.md. *)
From Coq Require Import QArith.
From Verif Require Import Common PathModel PathSpec DriverModel.
Local Open Scope nat_scope.

(* the last value that a list gives, or the default *)
Definition last_of {K A} (f : K -> option A) (d : A) (l : list K) : A :=
  last (flat_map (fun k => match f k with Some a => [a] | None => [] end) l) d.

(* ---- objects: the last value of each key, the documented default otherwise ---- *)

Definition attributes_channel (l : list attribute) : chan :=
  last_of (fun a => match a with AChannel c => Some c | AInverted => None end) CAlpha l.
Definition attributes_inverted (l : list attribute) : bool :=
  existsb (fun a => match a with AInverted => true | AChannel _ => false end) l.

Definition described (name : text) (keys : list mkey) (light : bool) : pmesh :=
  mk_pmesh
    (last_of (fun k => match k with KName s => Some s | _ => None end) name keys)
    (last_of (fun k => match k with KMaterial s => Some s | _ => None end) [] keys)
    (last_of (fun k => match k with KPosition v => Some v | _ => None end) (0, 0, 0)%Q keys)
    (last_of (fun k => match k with KRotation v => Some v | _ => None end) (0, 0, 0)%Q keys)
    (last_of (fun k => match k with KScale v => Some v | KScale1 q => Some (q, q, q) | _ => None end) (1, 1, 1)%Q keys)
    light
    (last_of (fun k => match k with KTemperature t => Some t | _ => None end) (-1)%Z keys)
    (last_of (fun k => match k with KColor v => Some v | _ => None end) (255, 255, 255)%Q keys)
    (last_of (fun k => match k with KMask s l => Some (mk_pmask s (attributes_channel l) (attributes_inverted l)) | _ => None end)
             (mk_pmask [] CAlpha false) keys).

(* ---- settings ---- *)

Definition width_of := last_of (fun x => match x with SetWidth w => Some w | _ => None end) 800%Z.
Definition described_settings (l : list setting) : settings :=
  mk_settings
    (last_of (fun x => match x with SetOutput s => Some s | _ => None end) (chars "out.ppm") l)
    (width_of l)
    (last_of (fun x => match x with SetHeight h => Some h | _ => None end) 600%Z l)
    (last_of (fun x => match x with SetSpp n => Some n | _ => None end) 121%Z l)
    (last_of (fun x => match x with SetStratified b => Some b | _ => None end) true l)
    (last_of (fun x => match x with SetFilter k => Some k | _ => None end) FMitchell l)
    (last_of (fun x => match x with SetValue0 q => Some q | _ => None end) (33 # 100)%Q l)
    (last_of (fun x => match x with SetValue1 q => Some q | _ => None end) (33 # 100)%Q l)
    (last_of (fun x => match x with SetCamera k => Some k | _ => None end) KPerspective l)
    (last_of (fun x => match x with SetPosition v => Some v | _ => None end) (0, 0, 0)%Q l)
    (last_of (fun x => match x with SetTarget v => Some v | _ => None end) (0, 0, 1)%Q l)
    (last_of (fun x => match x with SetUp v => Some v | _ => None end) (0, 1, 0)%Q l)
    (last_of (fun x => match x with SetFov q => Some q | _ => None end) 55%Q l).

(* ---- the statements of a kind ---- *)
Section Kinds.
Context {mat dualmat : Type}.
Notation stmt := (stmt mat dualmat).
Definition settings_in (l : list stmt) := flat_map (fun s => match s with Setting x => [x] | _ => [] end) l.
Definition shapes_in (l : list stmt) := flat_map (fun s => match s with Shape p => [p] | _ => [] end) l.
Definition meshes_in (l : list stmt) :=
  flat_map (fun s => match s with World n k => [described n k false] | Light n k => [described n k true] | _ => [] end) l.
Definition mats_in (l : list stmt) := flat_map (fun s => match s with Material m => [m] | _ => [] end) l.
Definition duals_in (l : list stmt) := flat_map (fun s => match s with Dual m => [m] | _ => [] end) l.
Definition children_in (l : list stmt) := flat_map (fun s => match s with Child p => [p] | _ => [] end) l.
End Kinds.

(* ---- paths ---- *)

(* the relative path made of some names: "a/b/c" *)
Definition relative (ns : list text) : text := tl (path_of ns).

(* a child file is given by a relative or by an absolute path *)
Inductive child := Relative (ns : list text) | Absolute (ns : list text).
Definition child_path (c : child) : text :=
  match c with Relative ns => relative ns | Absolute ns => path_of ns end.
Definition child_names (c : child) : list text := match c with Relative ns => ns | Absolute ns => ns end.
Definition proper_child (c : child) : Prop := child_names c <> [] /\ Forall name (child_names c).
(* where it should be: from the directory of the input file *)
Definition child_place (dir : list text) (c : child) : list text :=
  match c with Relative ns => dir ++ ns | Absolute ns => ns end.
(* the relative ones *)
Definition relatives (cs : list child) : list (list text) :=
  flat_map (fun c => match c with Relative ns => [ns] | Absolute _ => [] end) cs.

(* ---- textures ---- *)

(* README: the name is searched in the library, otherwise it is a path *)
Definition documented_texture (usable : text -> bool) (lib : texlib) (place : text) (kind : tex_kind) (s : text) : option texture :=
  match find_texture lib s with
  | Some t => Some t
  | None => if usable place then Some (mk_texture place (1, 1)%Q (0, 0)%Q kind) else None
  end.
