(* C246-C249: what the parser makes of the text of a configuration. *)
From Coq Require Import QArith.
From Verif Require Import Common PathModel PathSpec MaskModel DriverModel BuildModel ScanModel ScanSpec ScanWords ScanProofs ScanProps
  GramModel GramSpec GramProofs.
Local Open Scope nat_scope.

(* C246 *)
Theorem documents_parsed : forall ts l, parse_tokens ts = Some l <-> document ts l.
Proof.
  intros ts l. split.
  - intros H. unfold parse_tokens in H. destruct ts as [|t ts]; [discriminate|]. split; [|discriminate].
    apply (statements_sound _ _ _ H).
  - intros [H N]. unfold parse_tokens. destruct ts as [|t ts]; [contradiction|].
    destruct (statements_prefix _ _ H (List.length (t :: ts)) []) as (g & _ & E); [rewrite app_nil_r; lia|].
    rewrite app_nil_r in E. rewrite E. destruct g; simpl; rewrite app_nil_r; reflexivity.
Qed.
Print Assumptions documents_parsed.

Theorem documents_unambiguous : forall ts l m, document ts l -> document ts m -> l = m.
Proof. intros ts l m H K. apply documents_parsed in H. apply documents_parsed in K. congruence. Qed.
Print Assumptions documents_unambiguous.

(* a material with its name in the middle, and a world with a mask *)
Example documents_parsed_case : exists l, document
  [Kw KwMaterial; Colon; OpenCu; Kw KwType; Colon; Kw KwMetal; Comma; Kw KwName; Colon; Str (chars "m");
   Kw KwElement; Colon; Element 3; Comma; Comma; CloseCu; Comma;
   Kw KwWorld; Colon; OpenCu; Kw KwName; Colon; Str (chars "w"); Kw KwMask; Colon; Str (chars "t"); Kw KwChannelG; Kw KwInverted;
   Kw KwScale; Colon; Float (3 # 2); CloseCu] l /\
  l = [Material (chars "m", [MType Metal; MElem 3]); World (chars "w") [KMask (chars "t") [AChannel CGreen; AInverted]; KScale1 (3 # 2)]].
Proof. eexists. split; [apply documents_parsed; vm_compute; reflexivity|reflexivity]. Qed.

(* C247 *)
Theorem config_read : forall ts l s, layout ts s -> document ts l -> read_config s = Ok (Some l).
Proof.
  intros ts l s L D. unfold read_config. rewrite (layout_scanned ts s L). cbn [bind]. apply documents_parsed in D. rewrite D. reflexivity.
Qed.
Print Assumptions config_read.

Theorem config_read_only : forall s l, read_config s = Ok (Some l) -> exists ts, scan s = Ok (Some ts) /\ document ts l.
Proof.
  intros s l H. unfold read_config in H. destruct (scan s) as [[ts|]| |] eqn:E; cbn [bind] in H; try discriminate.
  exists ts. split; [reflexivity|]. apply documents_parsed. congruence.
Qed.
Print Assumptions config_read_only.

Example config_read_case : document [Kw KwSpp; Colon; UInt 36; Kw KwOut; Colon; Str (chars "a b")]
  [Setting (SetSpp 36); Setting (SetOutput (chars "a b"))] /\
  read_config (chars "spp:" ++ tab :: chars "+36# samples" ++ newline :: chars "out : 'a b' # end") =
  Ok (Some [Setting (SetSpp 36); Setting (SetOutput (chars "a b"))]).
Proof.
  assert (D : document [Kw KwSpp; Colon; UInt 36; Kw KwOut; Colon; Str (chars "a b")]
    [Setting (SetSpp 36); Setting (SetOutput (chars "a b"))]) by (apply documents_parsed; vm_compute; reflexivity).
  split; [exact D|]. apply (config_read _ _ _ layout_scanned_case D).
Qed.

(* statements that are right, then one that is not *)
Lemma refused_after ts l t r : statement_list ts l -> statement (t :: r) = None -> parse_tokens (ts ++ t :: r) = None.
Proof.
  intros H N. unfold parse_tokens. destruct (ts ++ t :: r) eqn:E; [reflexivity|]. rewrite <- E.
  destruct (statements_prefix _ _ H (List.length (ts ++ t :: r)) (t :: r)) as (g & G & X); [lia|]. rewrite X.
  destruct g as [|g]; [simpl in G; lia|]. cbn [statements]. rewrite N. reflexivity.
Qed.
Lemma text_refused E ts l t r s : statement_list ts l -> (forall us, statement (t :: r ++ us) = None) ->
  layout_then E (ts ++ t :: r) s -> forall m, read_config s <> Ok (Some m).
Proof.
  intros H N L m X. apply scan_layout_then in L. destruct L as (e & _ & EQ). unfold read_config in X. rewrite EQ in X.
  destruct (scan e) as [[us|]| |]; cbn [prepend bind] in X; try discriminate.
  rewrite <- app_assoc in X. cbn [app] in X. rewrite (refused_after ts l t (r ++ us) H (N us)) in X. discriminate.
Qed.

(* C248: the file README.md shows is accepted; its `integrator: pt` names platinum *)
Theorem readme_integrator_refuted : forall E ts l s, statement_list ts l ->
  layout_then E (ts ++ [Kw KwIntegrator; Colon; Element 7]) s -> forall m, read_config s <> Ok (Some m).
Proof. intros E ts l s H L. apply (text_refused E ts l (Kw KwIntegrator) [Colon; Element 7] s H); [reflexivity|exact L]. Qed.
Print Assumptions readme_integrator_refuted.

Example readme_integrator_case :
  nth_error symbols 7 = Some (chars "Pt") /\ Forall2 same_letter (chars "Pt") (chars "pt") /\
  statement_list [Kw KwSpp; Colon; UInt 36] [Setting (SetSpp 36)] /\
  layout_then last_gap ([Kw KwSpp; Colon; UInt 36] ++ [Kw KwIntegrator; Colon; Element 7]) (chars "spp:36 integrator:pt").
Proof.
  assert (P : Forall2 same_letter (chars "Pt") (chars "pt")).
  { constructor; [|constructor; [left; reflexivity|constructor]]. right. left. split; [split; vm_compute; lia|reflexivity]. }
  split; [reflexivity|]. split; [exact P|]. split; [apply (sl_cons [Kw KwSpp; Colon; UInt 36] [Setting (SetSpp 36)] [] []); constructor|].
  apply (layout_token _ (Kw KwSpp) _ [] (chars "spp") (chars ":36 integrator:pt")); [constructor|apply w_word; simpl; tauto|right; right; simpl; tauto|].
  apply (layout_token _ Colon _ [] (chars ":") (chars "36 integrator:pt")); [constructor|constructor|left; exact I|].
  apply (layout_token _ (UInt 36) _ [] (chars "36") (chars " integrator:pt")); [constructor| |right; left; left; reflexivity|].
  { apply (w_uint NoSign [3; 6]); [discriminate|split; [discriminate|repeat constructor]|split; [discriminate|reflexivity]]. }
  apply (layout_token _ (Kw KwIntegrator) _ (chars " ") (chars "integrator") (chars ":pt"));
    [repeat constructor|apply w_word; simpl; tauto|right; right; simpl; tauto|].
  apply (layout_token _ Colon _ [] (chars ":") (chars "pt")); [constructor|constructor|left; exact I|].
  apply (layout_token _ (Element 7) _ [] (chars "pt") []); [constructor|apply (w_element 7 (chars "Pt")); [reflexivity|exact P]|right; exact I|].
  apply layout_end. constructor. constructor.
Qed.

(* C249: the keys of an object may come in any order *)
Theorem name_first_refuted : forall E ts l k t s, statement_list ts l -> k = KwWorld \/ k = KwLight -> t <> Kw KwName ->
  layout_then E (ts ++ [Kw k; Colon; OpenCu; t]) s -> forall m, read_config s <> Ok (Some m).
Proof.
  intros E ts l k t s H K T L. apply (text_refused E ts l (Kw k) [Colon; OpenCu; t] s H); [|exact L].
  intros us. cbn [app statement]. assert (N : forall A (v : keyword -> list token -> result A), object_named v (OpenCu :: t :: us) = None).
  { intros A v. cbn [object_named]. destruct t; try reflexivity. destruct k0; try reflexivity. contradiction. }
  destruct K as [-> | ->]; cbn [statement_value]; rewrite N; reflexivity.
Qed.
Print Assumptions name_first_refuted.

(* world:{position:[0,0,0],name:'a'} is refused, world:{name:'a',position:[0,0,0]} is not *)
Example name_first_case :
  (exists E, layout_then E ([] ++ [Kw KwWorld; Colon; OpenCu; Kw KwPosition]) (chars "world:{position:[0,0,0],name:'a'}")) /\
  read_config (chars "world:{position:[0,0,0],name:'a'}") = Ok None /\
  read_config (chars "world:{name:'a',position:[0,0,0]}") = Ok (Some [World (chars "a") [KPosition (inject_Z 0, inject_Z 0, inject_Z 0)]]).
Proof.
  split; [|split; vm_compute; reflexivity].
  exists (fun _ => True). cbn [app].
  apply (layout_token _ (Kw KwWorld) _ [] (chars "world") (chars ":{position:[0,0,0],name:'a'}"));
    [constructor|apply w_word; simpl; tauto|right; right; simpl; tauto|].
  apply (layout_token _ Colon _ [] (chars ":") (chars "{position:[0,0,0],name:'a'}")); [constructor|constructor|left; exact I|].
  apply (layout_token _ OpenCu _ [] (chars "{") (chars "position:[0,0,0],name:'a'}")); [constructor|constructor|left; exact I|].
  apply (layout_token _ (Kw KwPosition) _ [] (chars "position") (chars ":[0,0,0],name:'a'}"));
    [constructor|apply w_word; simpl; tauto|right; right; simpl; tauto|].
  constructor. exact I.
Qed.

(* the file of README.md, with `path` for `pt` *)
Definition dq (s : text) : text := quote :: s ++ [quote].
Definition readme_text (integrator : text) : text :=
  chars "out: " ++ dq (chars "output.tga") ++ newline :: chars "resolution: {" ++ newline :: chars "    width: 1280" ++ newline ::
  chars "    height: 1024" ++ newline :: chars "}" ++ newline :: chars "filter:{type: lanczos, value0: 3.5}" ++ newline ::
  chars "spp: 36" ++ newline :: chars "integrator: " ++ integrator ++ newline :: chars "sampler: stratified" ++ newline ::
  chars "camera: {" ++ newline :: chars "    type: perspective" ++ newline :: chars "    position: [0,0,0]" ++ newline ::
  chars "    target: [-1.5,0.0,.9]" ++ newline :: chars "    up: [0,1,0]" ++ newline :: chars "    fov: 0.55" ++ newline :: chars "}" ++
  newline :: chars "shape: " ++ dq (chars "lamp.obj") ++ newline :: chars "light: {" ++ newline ::
  chars "    name: " ++ dq (chars "normal lamp") ++ newline :: chars "    temperature: 5500" ++ newline :: chars "}" ++ newline ::
  chars "world: {" ++ newline :: chars "    name: " ++ dq (chars "box001") ++ newline :: chars "    position: [-1,0,0]" ++ newline ::
  chars "    scale: 1.5" ++ newline :: chars "    mask: " ++ dq (chars "Wall") ++ chars " using channel R inverted" ++ newline ::
  chars "}" ++ newline :: newline :: chars "texture:{name:'Wall',src:" ++ dq (chars "folder/wall.tga") ++ chars "}" ++ newline ::
  chars "material: {" ++ newline :: chars "  name: " ++ dq (chars "Red Oren-Nayar") ++ newline :: chars "  type: matte" ++ newline ::
  chars "  diffuse: " ++ dq (chars "Wall") ++ newline :: chars "  specular: [255,255,255]" ++ newline :: chars "  roughness: 0.2" ++
  newline :: chars "}" ++ newline :: chars "material: " ++ dq (chars "another_file.txt") ++ [newline].
Example readme_example :
  read_config (readme_text (chars "pt")) = Ok None /\
  read_config (readme_text (chars "path")) = Ok (Some [
    Setting (SetOutput (chars "output.tga")); Setting (SetWidth 1280); Setting (SetHeight 1024);
    Setting (SetFilter FLanczos); Setting (SetValue0 (7 # 2)); Setting (SetSpp 36); Setting (SetStratified true);
    Setting (SetCamera KPerspective); Setting (SetPosition (0, 0, 0)); Setting (SetTarget (-3 # 2, 0, 9 # 10));
    Setting (SetUp (0, 1, 0)); Setting (SetFov (11 # 20)); Shape (chars "lamp.obj");
    Light (chars "normal lamp") [KTemperature 5500];
    World (chars "box001") [KPosition (inject_Z (-1), 0, 0); KScale1 (3 # 2); KMask (chars "Wall") [AChannel CRed; AInverted]];
    Texture [TName (chars "Wall")] (chars "folder/wall.tga");
    Material (chars "Red Oren-Nayar", [MType Matte; MDiffuse (chars "Wall"); MSpecularU (255, 255, 255); MRough (1 # 5)]);
    Child (chars "another_file.txt")])%Q.
Proof. split; vm_compute; reflexivity. Qed.

(* the last of the values given by a key *)
Definition last_given (pick : dkey -> option text) (keys : list dkey) : text :=
  last (concat (map (fun k => match pick k with Some s => [s] | None => [] end) keys)) [].

(* C306.  A dual material has the first and the second material written last, in any order and with any
   other keys between. *)
Theorem dual_as_written : forall n keys,
  pu_name (parsed_dual n keys) = n /\
  pu_first (parsed_dual n keys) = last_given (fun k => match k with DFirst s => Some s | _ => None end) keys /\
  pu_second (parsed_dual n keys) = last_given (fun k => match k with DSecond s => Some s | _ => None end) keys.
Proof.
  assert (L : forall A (l : list A) x d e, last (x :: l) d = last (x :: l) e).
  { intros A l; induction l as [| y l IH]; intros x d e; [reflexivity |]; apply (IH y d e). }
  intros n keys; unfold parsed_dual, last_given.
  assert (G : forall keys a f s m c, let '(mk_pdual a' f' s' m', c') := fold_left set_dual keys (mk_pdual a f s m, c) in
    a' = a /\
    f' = last (concat (map (fun k => match match k with DFirst s => Some s | _ => None end with Some s => [s] | None => [] end) keys)) f /\
    s' = last (concat (map (fun k => match match k with DSecond s => Some s | _ => None end with Some s => [s] | None => [] end) keys)) s).
  { clear n keys; induction keys as [| k keys IH]; intros a f s m c; [cbn; auto |].
    destruct k as [t | t | t l]; cbn [fold_left set_dual map concat app].
    - specialize (IH a t s m c); destruct (fold_left set_dual keys _) as [[a' f' s' m'] c']; destruct IH as (-> & -> & ->).
      split; [reflexivity |]; split; [| reflexivity].
      set (z := concat _); destruct z as [| y z]; [reflexivity | apply (L _ z y)].
    - specialize (IH a f t m c); destruct (fold_left set_dual keys _) as [[a' f' s' m'] c']; destruct IH as (-> & -> & ->).
      split; [reflexivity |]; split; [reflexivity |].
      set (z := concat _); destruct z as [| y z]; [reflexivity | apply (L _ z y)].
    - cbv zeta; set (m' := mk_pmask _ _ _); clearbody m'; specialize (IH a f s m' no_mask); exact IH. }
  specialize (G keys [] [] [] no_mask no_mask); destruct (fold_left set_dual keys _) as [[a f s m] c].
  destruct G as (_ & -> & ->); auto.
Qed.
Print Assumptions dual_as_written.
Example dual_as_written_ex :
  let d := parsed_dual (chars "both") [DSecond (chars "wood"); DMask (chars "leaf") []; DFirst (chars "gold"); DFirst (chars "iron")] in
  pu_first d = chars "iron" /\ pu_second d = chars "wood".
Proof. split; reflexivity. Qed.
