(* src/parsers/config_parser.y: from the tokens of a configuration to its statements.  The automaton
   that bison generates from the grammar is not modelled: the functions here read the same tokens by
   recursive descent, one function for each nonterminal, with one token of lookahead. *)
From Coq Require Import QArith.
From Verif Require Import Common PathModel MaskModel DriverModel BuildModel ScanModel.
Local Open Scope nat_scope.

(* the keys of a dualmaterial object *)
Inductive dkey := DFirst (s : text) | DSecond (s : text) | DMask (s : text) (l : list attribute).

(* a statement with the keys of its object in the order of the file *)
Definition conf := stmt (text * list matkey) (text * list dkey).

Definition result (A : Type) := option (A * list token).
Definition give {A B} (f : A -> B) (r : result A) : result B :=
  match r with Some (a, r) => Some (f a, r) | None => None end.

(* config_parser.y:356-364 number and integer; the conversion to float is exact here *)
Definition number (t : token) : option Q :=
  match t with Float q => Some q | UInt n => Some (inject_Z n) | Int n => Some (inject_Z n) | _ => None end.
Definition one_number (ts : list token) : result Q :=
  match ts with t :: r => match number t with Some q => Some (q, r) | None => None end | [] => None end.
(* config_parser.y:347-350 *)
Definition vector (ts : list token) : result v3 :=
  match ts with
  | OpenSq :: a :: Comma :: b :: Comma :: c :: CloseSq :: r =>
    match number a, number b, number c with Some a, Some b, Some c => Some ((a, b, c), r) | _, _, _ => None end
  | _ => None
  end.
(* config_parser.y:352-354 *)
Definition vector2 (ts : list token) : result (Q * Q) :=
  match ts with
  | OpenSq :: a :: Comma :: b :: CloseSq :: r =>
    match number a, number b with Some a, Some b => Some ((a, b), r) | _, _ => None end
  | _ => None
  end.
Definition uint (ts : list token) : result Z := match ts with UInt n :: r => Some (n, r) | _ => None end.
Definition str (ts : list token) : result text := match ts with Str s :: r => Some (s, r) | _ => None end.

(* config_parser.y:333-345 *)
Definition attribute_of (t : token) : option attribute :=
  match t with
  | Kw KwChannelR => Some (AChannel CRed)
  | Kw KwChannelG => Some (AChannel CGreen)
  | Kw KwChannelB => Some (AChannel CBlue)
  | Kw KwChannelA => Some (AChannel CAlpha)
  | Kw KwInverted => Some AInverted
  | _ => None
  end.
Fixpoint attributes (ts : list token) : list attribute * list token :=
  match ts with
  | t :: r => match attribute_of t with
              | Some a => let '(l, r) := attributes r in (a :: l, r)
              | None => ([], ts)
              end
  | [] => ([], [])
  end.
(* MASK COLON STRING with or without attributes *)
Definition mask_value (ts : list token) : result (text * list attribute) :=
  match str ts with
  | Some (s, r) => let '(l, r) := attributes r in Some ((s, l), r)
  | None => None
  end.

(* key: value, or a comma, which has no effect *)
Definition pair_or_comma {K} (value : keyword -> list token -> result K) (ts : list token) : result (list K) :=
  match ts with
  | Comma :: r => Some ([], r)
  | Kw k :: Colon :: r => give (fun x => [x]) (value k r)
  | _ => None
  end.
(* pairs until a token that ends them, which is left; the recursion is bounded by the tokens *)
Fixpoint pairs_until {K} (stop : token -> bool) (value : keyword -> list token -> result K) (fuel : nat)
    (ts : list token) : result (list K) :=
  match ts, fuel with
  | [], _ => None
  | t :: _, O => if stop t then Some ([], ts) else None
  | t :: _, S fuel =>
    if stop t then Some ([], ts)
    else match pair_or_comma value ts with
         | Some (a, r) => give (app a) (pairs_until stop value fuel r)
         | None => None
         end
  end.
Definition is_close (t : token) : bool := match t with CloseCu => true | _ => false end.
Definition is_name (t : token) : bool := match t with Kw KwName => true | _ => false end.
Definition is_src (t : token) : bool := match t with Kw KwSrc => true | _ => false end.

(* pairs up to the brace that closes their object *)
Definition rest_of_object {K} (value : keyword -> list token -> result K) (ts : list token) : result (list K) :=
  match pairs_until is_close value (List.length ts) ts with
  | Some (l, CloseCu :: r) => Some (l, r)
  | _ => None
  end.
(* an object of at least one pair or comma *)
Definition object {K} (value : keyword -> list token -> result K) (ts : list token) : result (list K) :=
  match ts with
  | OpenCu :: CloseCu :: _ => None
  | OpenCu :: r => rest_of_object value r
  | _ => None
  end.
(* an object with one string at any place among its pairs *)
Definition object_around {K} (stop : token -> bool) (value : keyword -> list token -> result K) (ts : list token)
    : result (list K * text) :=
  match ts with
  | OpenCu :: r =>
    match pairs_until stop value (List.length r) r with
    | Some (before, _ :: Colon :: Str s :: r) => give (fun after => (before ++ after, s)) (rest_of_object value r)
    | _ => None
    end
  | _ => None
  end.
(* an object that starts with its name *)
Definition object_named {K} (value : keyword -> list token -> result K) (ts : list token) : result (text * list K) :=
  match ts with
  | OpenCu :: Kw KwName :: Colon :: Str s :: r => give (fun l => (s, l)) (rest_of_object value r)
  | _ => None
  end.

(* config_parser.y:178-183 *)
Definition resolution_value (k : keyword) (ts : list token) : result conf :=
  match k with
  | KwWidth => give (fun n => Setting (SetWidth n)) (uint ts)
  | KwHeight => give (fun n => Setting (SetHeight n)) (uint ts)
  | _ => None
  end.

(* config_parser.y:185-198 *)
Definition filter_value (k : keyword) (ts : list token) : result conf :=
  match k, ts with
  | KwType, Kw KwBox :: r => Some (Setting (SetFilter FBox), r)
  | KwType, Kw KwTent :: r => Some (Setting (SetFilter FTent), r)
  | KwType, Kw KwGauss :: r => Some (Setting (SetFilter FGauss), r)
  | KwType, Kw KwMitchell :: r => Some (Setting (SetFilter FMitchell), r)
  | KwType, Kw KwLanczos :: r => Some (Setting (SetFilter FLanczos), r)
  | KwValue0, _ => give (fun q => Setting (SetValue0 q)) (one_number ts)
  | KwValue1, _ => give (fun q => Setting (SetValue1 q)) (one_number ts)
  | KwTexture, Kw KwUnfiltered :: r => Some (TextureFilter TUnfiltered, r)
  | KwTexture, Kw KwTrilinear :: r => Some (TextureFilter TTrilinear, r)
  | KwTexture, Kw KwEwa :: r => Some (TextureFilter TEwa, r)
  | _, _ => None
  end.

(* config_parser.y:200-210 *)
Definition camera_value (k : keyword) (ts : list token) : result conf :=
  match k, ts with
  | KwType, Kw KwOrthographic :: r => Some (Setting (SetCamera KOrthographic), r)
  | KwType, Kw KwPerspective :: r => Some (Setting (SetCamera KPerspective), r)
  | KwType, Kw KwPanorama :: r => Some (Setting (SetCamera KPanorama), r)
  | KwPosition, _ => give (fun v => Setting (SetPosition v)) (vector ts)
  | KwTarget, _ => give (fun v => Setting (SetTarget v)) (vector ts)
  | KwUp, _ => give (fun v => Setting (SetUp v)) (vector ts)
  | KwFov, _ => give (fun q => Setting (SetFov q)) (one_number ts)
  | _, _ => None
  end.

(* config_parser.y:215-224 *)
Definition world_value (k : keyword) (ts : list token) : result mkey :=
  match k with
  | KwPosition => give KPosition (vector ts)
  | KwRotation => give KRotation (vector ts)
  | KwScale => match vector ts with
               | Some (v, r) => Some (KScale v, r)
               | None => give KScale1 (one_number ts)
               end
  | KwMaterial => give KMaterial (str ts)
  | KwMask => give (fun m => KMask (fst m) (snd m)) (mask_value ts)
  | _ => None
  end.
(* config_parser.y:226-231 *)
Definition light_value (k : keyword) (ts : list token) : result mkey :=
  match k with
  | KwTemperature => give KTemperature (uint ts)
  | KwColor => give KColor (vector ts)
  | _ => world_value k ts
  end.

(* config_parser.y:240-247 *)
Definition texture_value (k : keyword) (ts : list token) : result tkey :=
  match k with
  | KwName => give TName (str ts)
  | KwScale => match vector2 ts with
               | Some (v, r) => Some (TScale v, r)
               | None => give (fun q => TScale (q, q)) (one_number ts)
               end
  | KwShift => give TShift (vector2 ts)
  | _ => None
  end.

(* config_parser.y:257-280 *)
Definition ior_value (ts : list token) : result ior :=
  match vector ts with
  | Some ((a, b, c), r) =>
    match vector r with
    | Some (w, r) => Some (Sellmeier (a, b, c) w, r)
    | None => Some (Cauchy a b c, r)
    end
  | None =>
    match vector2 ts with
    | Some ((a, b), r) => Some (Cauchy a b 0, r)
    | None => give (fun a => Cauchy a 0 0) (one_number ts)
    end
  end.
Definition material_value (k : keyword) (ts : list token) : result matkey :=
  match k, ts with
  | KwType, Kw KwMatte :: r => Some (MType Matte, r)
  | KwType, Kw KwGlossy :: r => Some (MType Glossy, r)
  | KwType, Kw KwMetal :: r => Some (MType Metal, r)
  | KwType, Kw KwGlass :: r => Some (MType Glass, r)
  | KwIor, _ => give MIor (ior_value ts)
  | KwRoughness, _ => give MRough (one_number ts)
  | KwAnisotropy, _ => give MAniso (one_number ts)
  | KwDistribution, Kw KwBlinn :: r => Some (MDist KBlinn, r)
  | KwDistribution, Kw KwBeckmann :: r => Some (MDist KBeckmann, r)
  | KwDistribution, Kw KwGgx :: r => Some (MDist KGgx, r)
  | KwDiffuse, Str s :: r => Some (MDiffuse s, r)
  | KwDiffuse, _ => give MDiffuseU (vector ts)
  | KwSpecular, Str s :: r => Some (MSpecular s, r)
  | KwSpecular, _ => give MSpecularU (vector ts)
  | KwNormal, Str s :: r => Some (MNormal s, r)
  | KwElement, Element n :: r => Some (MElem n, r)
  | _, _ => None
  end.

(* config_parser.y:290-296 *)
Definition dual_value (k : keyword) (ts : list token) : result dkey :=
  match k with
  | KwFirst => give DFirst (str ts)
  | KwSecond => give DSecond (str ts)
  | KwMask => give (fun m => DMask (fst m) (snd m)) (mask_value ts)
  | _ => None
  end.

(* config_parser.y:159-176 *)
Definition statement_value (k : keyword) (ts : list token) : result (list conf) :=
  match k, ts with
  | KwOut, _ => give (fun s => [Setting (SetOutput s)]) (str ts)
  | KwResolution, _ => object resolution_value ts
  | KwFilter, _ => object filter_value ts
  | KwSampler, Kw KwRandom :: r => Some ([Setting (SetStratified false)], r)
  | KwSampler, Kw KwStratified :: r => Some ([Setting (SetStratified true)], r)
  | KwSpp, _ => give (fun n => [Setting (SetSpp n)]) (uint ts)
  | KwIntegrator, Kw KwPath :: r => Some ([], r)
  | KwCamera, _ => object camera_value ts
  | KwShape, _ => give (fun s => [Shape s]) (str ts)
  | KwWorld, _ => give (fun x => [World (fst x) (snd x)]) (object_named world_value ts)
  | KwLight, _ => give (fun x => [Light (fst x) (snd x)]) (object_named light_value ts)
  | KwTexture, _ => give (fun x => [Texture (fst x) (snd x)]) (object_around is_src texture_value ts)
  | KwMaterial, Str s :: r => Some ([Child s], r)
  | KwMaterial, _ => give (fun x => [Material (snd x, fst x)]) (object_around is_name material_value ts)
  | KwDualmaterial, _ => give (fun x => [Dual (snd x, fst x)]) (object_around is_name dual_value ts)
  | _, _ => None
  end.
Definition statement (ts : list token) : result (list conf) :=
  match ts with
  | Comma :: r => Some ([], r)
  | Kw k :: Colon :: r => statement_value k r
  | _ => None
  end.

(* config_parser.y:154-157: one or more statements *)
Fixpoint statements (fuel : nat) (ts : list token) : option (list conf) :=
  match ts, fuel with
  | [], _ => Some []
  | _, O => None
  | _, S fuel =>
    match statement ts with
    | Some (a, r) => match statements fuel r with Some l => Some (a ++ l) | None => None end
    | None => None
    end
  end.
Definition parse_tokens (ts : list token) : option (list conf) :=
  match ts with [] => None | _ => statements (List.length ts) ts end.

(* A file: None if it is refused, which ends the program.  Here all of it is scanned before it is
   parsed; the program asks for one token at a time, so of two errors it meets the first. *)
Definition read_config (s : text) : res (option (list conf)) :=
  let! ts := scan s in Ok (match ts with Some ts => parse_tokens ts | None => None end).

(* what the objects of materials leave in the driver: BuildModel.v parsed_mat, and
   config_parser.y:282-296 with 174 *)
Definition set_dual (st : pdual * pmask) (k : dkey) : pdual * pmask :=
  let '(mk_pdual n f s m, c) := st in
  match k with
  | DFirst f => (mk_pdual n f s m, c)
  | DSecond s => (mk_pdual n f s m, c)
  | DMask t l => let c := fold_left set_attribute l c in (mk_pdual n f s (mk_pmask t (pm_chn c) (pm_inv c)), no_mask)
  end.
Definition parsed_dual (n : text) (keys : list dkey) : pdual :=
  let '(mk_pdual _ f s m, _) := fold_left set_dual keys (mk_pdual [] [] [] no_mask, no_mask) in mk_pdual n f s m.
