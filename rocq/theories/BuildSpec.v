(* What materials and objects should be, after src/parsers/README.md. *)
From Coq Require Import QArith Qminmax.
From Verif Require Import Common PathModel PathSpec MaskModel DriverModel DriverSpec BuildModel.
Local Open Scope nat_scope.

(* ---- descriptions of materials: the last value of each key ---- *)
Definition described_mat (n : text) (keys : list matkey) : pmat :=
  mk_pmat n
    (last_of (fun k => match k with MElem e => Some e | _ => None end) 2 keys)
    (last_of (fun k => match k with MType t => Some t | _ => None end) Matte keys)
    (last_of (fun k => match k with MIor i => Some i | _ => None end) (Cauchy (145 # 100) 0 0) keys)
    (last_of (fun k => match k with MRough q => Some q | _ => None end) 0%Q keys)
    (last_of (fun k => match k with MAniso q => Some q | _ => None end) (-1)%Q keys)
    (last_of (fun k => match k with MDist d => Some d | _ => None end) KBeckmann keys)
    (last_of (fun k => match k with MDiffuse s => Some s | _ => None end) [] keys)
    (last_of (fun k => match k with MDiffuseU v => Some (Some (to_rgb v)) | _ => None end) None keys)
    (last_of (fun k => match k with MSpecular s => Some s | _ => None end) [] keys)
    (last_of (fun k => match k with MSpecularU v => Some (Some (to_rgb v)) | _ => None end) None keys)
    (last_of (fun k => match k with MNormal s => Some s | _ => None end) [] keys).

(* ---- roughness ---- *)

(* the values of the README: roughness in [0,1]; anisotropy unset or in [0,1] *)
Definition documented_range (r : Q) (a : option Q) : Prop :=
  (0 <= r <= 1)%Q /\ match a with None => True | Some a => (0 <= a <= 1)%Q end.
(* unset is stored as -1 *)
Definition stored (a : option Q) : Q := match a with None => (-1)%Q | Some a => a end.

(* "If this equals the roughness value or is unset, the surface is assumed isotropic" *)
Definition anisotropic (r : Q) (a : option Q) : Prop := match a with None => False | Some a => ~ (a == r)%Q end.

(* no distribution is degenerate: 0 is replaced by the smallest roughness *)
Definition at_least (q : Q) : Q := Qmax (1 # 1000) q.

(* the distribution of a rough surface *)
Inductive documented_dist (k : dkind) (r : Q) (a : option Q) : dist -> Prop :=
| doc_aniso : forall y, a = Some y -> ~ (y == r)%Q -> forall x' y', (x' == at_least r)%Q -> (y' == at_least y)%Q ->
    documented_dist k r a (GgxAniso x' y')
| doc_blinn : ~ anisotropic r a -> k = KBlinn -> forall e, (e == 2 / (r * r) - 2)%Q -> documented_dist k r a (Blinn e)
| doc_beckmann : ~ anisotropic r a -> k = KBeckmann -> forall r', (r' == r)%Q -> documented_dist k r a (Beckmann r')
| doc_ggx : ~ anisotropic r a -> k = KGgx -> forall r', (r' == r)%Q -> documented_dist k r a (GgxIso r').

(* a surface is smooth if its roughness is 0 and it is isotropic *)
Definition smooth (r : Q) (a : option Q) : Prop := (r == 0)%Q /\ ~ anisotropic r a.

(* the layers of each type of material *)
Inductive documented_layers (e : nat) (i : ior) (k : dkind) (r : Q) (a : option Q) (df sp : tex) : mtype -> list (layer * tex) -> Prop :=
| doc_lambert : smooth r a -> documented_layers e i k r a df sp Matte [(LLambert, df)]
| doc_oren : ~ smooth r a -> forall s, (anisotropic r a -> s == 100 * at_least r)%Q -> (~ anisotropic r a -> s == 100 * r)%Q ->
    documented_layers e i k r a df sp Matte [(LOrenNayar s, df)]
| doc_glossy : forall d, (smooth r a -> documented_dist k (1 # 1000) None d) -> (~ smooth r a -> documented_dist k r a d) ->
    documented_layers e i k r a df sp Glossy [(LLambert, df); (LMicroR d (FDielectric (Cauchy (3 # 2) 0 0)), sp)]
| doc_glass_smooth : smooth r a -> documented_layers e i k r a df sp Glass [(LRefraction i, df); (LMirror (FDielectric i), sp)]
| doc_glass : ~ smooth r a -> forall d, documented_dist k r a d ->
    documented_layers e i k r a df sp Glass [(LMicroT d i, df); (LMicroR d (FDielectric i), sp)]
| doc_metal_smooth : smooth r a -> documented_layers e i k r a df sp Metal [(LMirror (FConductor e), TxWhite)]
| doc_metal : ~ smooth r a -> forall d, documented_dist k r a d ->
    documented_layers e i k r a df sp Metal [(LMicroR d (FConductor e), TxWhite)].

(* distributions whose formulas do not divide by zero *)
Definition valid_dist (d : dist) : Prop :=
  match d with
  | Blinn e => (0 <= e)%Q
  | Beckmann r => (0 < r <= 1)%Q
  | GgxIso r => (0 < r <= 1)%Q
  | GgxAniso x y => (0 < x <= 1)%Q /\ (0 < y <= 1)%Q
  end.
Definition valid_layer (l : layer) : Prop :=
  match l with LMicroR d _ => valid_dist d | LMicroT d _ => valid_dist d | LOrenNayar s => (0 < s <= 100)%Q | _ => True end.

(* ---- textures of materials ---- *)
(* a texture given by a plain name, an uniform colour or nothing *)
Definition documented_tex (usable : text -> bool) (lib : texlib) (D : list text) (kind : tex_kind)
    (u : option (Z * Z * Z)) (s : text) : tex :=
  match u with
  | Some c => TxUniform c
  | None => match s with [] => TxWhite | _ => tex_of (documented_texture usable lib (path_of (D ++ [s])) kind s) end
  end.
Definition plain (s : text) : Prop := s = [] \/ name s.

(* ---- objects ---- *)
(* the mesh of a name: the first one parsed *)
Definition mesh_named (meshes : list parsed_mesh) (n : text) (m : parsed_mesh) : Prop :=
  exists pre post, meshes = pre ++ m :: post /\ ms_name m = n /\ Forall (fun m' => ms_name m' <> n) pre.
