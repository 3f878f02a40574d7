(* The documents of src/parsers/README.md as tokens: `key: value` pairs with any commas between them,
   objects in braces, and what each pair means. *)
From Coq Require Import QArith.
From Verif Require Import Common PathModel MaskModel DriverModel BuildModel ScanModel ScanSpec GramModel.
Local Open Scope nat_scope.

(* an int stands for a float *)
Inductive float_value : token -> Q -> Prop :=
| f_float q : float_value (Float q) q
| f_uint n : float_value (UInt n) (inject_Z n)
| f_int n : float_value (Int n) (inject_Z n).
Inductive float3 : list token -> v3 -> Prop :=
| f3 x y z a b c : float_value x a -> float_value y b -> float_value z c ->
    float3 [OpenSq; x; Comma; y; Comma; z; CloseSq] (a, b, c).
Inductive float2 : list token -> Q * Q -> Prop :=
| f2 x y a b : float_value x a -> float_value y b -> float2 [OpenSq; x; Comma; y; CloseSq] (a, b).

Inductive mask_attribute : token -> attribute -> Prop :=
| a_red : mask_attribute (Kw KwChannelR) (AChannel CRed)
| a_green : mask_attribute (Kw KwChannelG) (AChannel CGreen)
| a_blue : mask_attribute (Kw KwChannelB) (AChannel CBlue)
| a_alpha : mask_attribute (Kw KwChannelA) (AChannel CAlpha)
| a_inverted : mask_attribute (Kw KwInverted) AInverted.

(* the pairs of each object: key, tokens of the value, meaning *)
Inductive resolution_pair : keyword -> list token -> conf -> Prop :=
| r_width n : resolution_pair KwWidth [UInt n] (Setting (SetWidth n))
| r_height n : resolution_pair KwHeight [UInt n] (Setting (SetHeight n)).

Inductive filter_pair : keyword -> list token -> conf -> Prop :=
| fi_box : filter_pair KwType [Kw KwBox] (Setting (SetFilter FBox))
| fi_tent : filter_pair KwType [Kw KwTent] (Setting (SetFilter FTent))
| fi_gauss : filter_pair KwType [Kw KwGauss] (Setting (SetFilter FGauss))
| fi_mitchell : filter_pair KwType [Kw KwMitchell] (Setting (SetFilter FMitchell))
| fi_lanczos : filter_pair KwType [Kw KwLanczos] (Setting (SetFilter FLanczos))
| fi_value0 t q : float_value t q -> filter_pair KwValue0 [t] (Setting (SetValue0 q))
| fi_value1 t q : float_value t q -> filter_pair KwValue1 [t] (Setting (SetValue1 q))
| fi_unfiltered : filter_pair KwTexture [Kw KwUnfiltered] (TextureFilter TUnfiltered)
| fi_trilinear : filter_pair KwTexture [Kw KwTrilinear] (TextureFilter TTrilinear)
| fi_ewa : filter_pair KwTexture [Kw KwEwa] (TextureFilter TEwa).

Inductive camera_pair : keyword -> list token -> conf -> Prop :=
| c_orthographic : camera_pair KwType [Kw KwOrthographic] (Setting (SetCamera KOrthographic))
| c_perspective : camera_pair KwType [Kw KwPerspective] (Setting (SetCamera KPerspective))
| c_panorama : camera_pair KwType [Kw KwPanorama] (Setting (SetCamera KPanorama))
| c_position ts v : float3 ts v -> camera_pair KwPosition ts (Setting (SetPosition v))
| c_target ts v : float3 ts v -> camera_pair KwTarget ts (Setting (SetTarget v))
| c_up ts v : float3 ts v -> camera_pair KwUp ts (Setting (SetUp v))
| c_fov t q : float_value t q -> camera_pair KwFov [t] (Setting (SetFov q)).

Inductive world_pair : keyword -> list token -> mkey -> Prop :=
| wo_position ts v : float3 ts v -> world_pair KwPosition ts (KPosition v)
| wo_rotation ts v : float3 ts v -> world_pair KwRotation ts (KRotation v)
| wo_scale ts v : float3 ts v -> world_pair KwScale ts (KScale v)
| wo_scale1 t q : float_value t q -> world_pair KwScale [t] (KScale1 q)
| wo_material s : world_pair KwMaterial [Str s] (KMaterial s)
| wo_mask s ts l : Forall2 mask_attribute ts l -> world_pair KwMask (Str s :: ts) (KMask s l).
Inductive light_pair : keyword -> list token -> mkey -> Prop :=
| li_world k ts x : world_pair k ts x -> light_pair k ts x
| li_temperature n : light_pair KwTemperature [UInt n] (KTemperature n)
| li_color ts v : float3 ts v -> light_pair KwColor ts (KColor v).

Inductive texture_pair : keyword -> list token -> tkey -> Prop :=
| t_name s : texture_pair KwName [Str s] (TName s)
| t_scale ts v : float2 ts v -> texture_pair KwScale ts (TScale v)
| t_scale1 t q : float_value t q -> texture_pair KwScale [t] (TScale (q, q))
| t_shift ts v : float2 ts v -> texture_pair KwShift ts (TShift v).

Inductive material_pair : keyword -> list token -> matkey -> Prop :=
| m_matte : material_pair KwType [Kw KwMatte] (MType Matte)
| m_glossy : material_pair KwType [Kw KwGlossy] (MType Glossy)
| m_metal : material_pair KwType [Kw KwMetal] (MType Metal)
| m_glass : material_pair KwType [Kw KwGlass] (MType Glass)
| m_ior1 t q : float_value t q -> material_pair KwIor [t] (MIor (Cauchy q 0 0))
| m_ior2 ts a b : float2 ts (a, b) -> material_pair KwIor ts (MIor (Cauchy a b 0))
| m_ior3 ts a b c : float3 ts (a, b, c) -> material_pair KwIor ts (MIor (Cauchy a b c))
| m_ior6 ts v us w : float3 ts v -> float3 us w -> material_pair KwIor (ts ++ us) (MIor (Sellmeier v w))
| m_roughness t q : float_value t q -> material_pair KwRoughness [t] (MRough q)
| m_anisotropy t q : float_value t q -> material_pair KwAnisotropy [t] (MAniso q)
| m_blinn : material_pair KwDistribution [Kw KwBlinn] (MDist KBlinn)
| m_beckmann : material_pair KwDistribution [Kw KwBeckmann] (MDist KBeckmann)
| m_ggx : material_pair KwDistribution [Kw KwGgx] (MDist KGgx)
| m_diffuse s : material_pair KwDiffuse [Str s] (MDiffuse s)
| m_diffuse_u ts v : float3 ts v -> material_pair KwDiffuse ts (MDiffuseU v)
| m_specular s : material_pair KwSpecular [Str s] (MSpecular s)
| m_specular_u ts v : float3 ts v -> material_pair KwSpecular ts (MSpecularU v)
| m_normal s : material_pair KwNormal [Str s] (MNormal s)
| m_element n : material_pair KwElement [Element n] (MElem n).

Inductive dual_pair : keyword -> list token -> dkey -> Prop :=
| d_first s : dual_pair KwFirst [Str s] (DFirst s)
| d_second s : dual_pair KwSecond [Str s] (DSecond s)
| d_mask s ts l : Forall2 mask_attribute ts l -> dual_pair KwMask (Str s :: ts) (DMask s l).

(* pairs one after the other, with any commas *)
Inductive pairs {K} (P : keyword -> list token -> K -> Prop) : list token -> list K -> Prop :=
| p_nil : pairs P [] []
| p_comma ts l : pairs P ts l -> pairs P (Comma :: ts) l
| p_pair k vs x ts l : P k vs x -> pairs P ts l -> pairs P (Kw k :: Colon :: vs ++ ts) (x :: l).

Inductive one_statement : list token -> list conf -> Prop :=
| st_comma : one_statement [Comma] []
| st_out s : one_statement [Kw KwOut; Colon; Str s] [Setting (SetOutput s)]
| st_resolution ts l : pairs resolution_pair ts l -> ts <> [] ->
    one_statement (Kw KwResolution :: Colon :: OpenCu :: ts ++ [CloseCu]) l
| st_filter ts l : pairs filter_pair ts l -> ts <> [] ->
    one_statement (Kw KwFilter :: Colon :: OpenCu :: ts ++ [CloseCu]) l
| st_camera ts l : pairs camera_pair ts l -> ts <> [] ->
    one_statement (Kw KwCamera :: Colon :: OpenCu :: ts ++ [CloseCu]) l
| st_random : one_statement [Kw KwSampler; Colon; Kw KwRandom] [Setting (SetStratified false)]
| st_stratified : one_statement [Kw KwSampler; Colon; Kw KwStratified] [Setting (SetStratified true)]
| st_spp n : one_statement [Kw KwSpp; Colon; UInt n] [Setting (SetSpp n)]
| st_integrator : one_statement [Kw KwIntegrator; Colon; Kw KwPath] []
| st_shape s : one_statement [Kw KwShape; Colon; Str s] [Shape s]
| st_world n ts l : pairs world_pair ts l ->
    one_statement (Kw KwWorld :: Colon :: OpenCu :: Kw KwName :: Colon :: Str n :: ts ++ [CloseCu]) [World n l]
| st_light n ts l : pairs light_pair ts l ->
    one_statement (Kw KwLight :: Colon :: OpenCu :: Kw KwName :: Colon :: Str n :: ts ++ [CloseCu]) [Light n l]
| st_texture ts l s us m : pairs texture_pair ts l -> pairs texture_pair us m ->
    one_statement (Kw KwTexture :: Colon :: OpenCu :: ts ++ Kw KwSrc :: Colon :: Str s :: us ++ [CloseCu]) [Texture (l ++ m) s]
| st_material ts l n us m : pairs material_pair ts l -> pairs material_pair us m ->
    one_statement (Kw KwMaterial :: Colon :: OpenCu :: ts ++ Kw KwName :: Colon :: Str n :: us ++ [CloseCu]) [Material (n, l ++ m)]
| st_dual ts l n us m : pairs dual_pair ts l -> pairs dual_pair us m ->
    one_statement (Kw KwDualmaterial :: Colon :: OpenCu :: ts ++ Kw KwName :: Colon :: Str n :: us ++ [CloseCu]) [Dual (n, l ++ m)]
| st_child s : one_statement [Kw KwMaterial; Colon; Str s] [Child s].

Inductive statement_list : list token -> list conf -> Prop :=
| sl_nil : statement_list [] []
| sl_cons ts l us m : one_statement ts l -> statement_list us m -> statement_list (ts ++ us) (l ++ m).
Definition document (ts : list token) (l : list conf) : Prop := statement_list ts l /\ ts <> [].
