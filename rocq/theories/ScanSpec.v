(* The text of a configuration as the user writes it (src/parsers/README.md): words, numbers and
   strings with blanks, line ends and comments between them. *)
From Coq Require Import QArith.
From Verif Require Import Common PathModel PathSpec DriverModel ScanModel.
Local Open Scope nat_scope.

(* ---- between the words ---- *)

Definition line_end (c : ascii) : Prop := c = newline \/ c = return_.
Definition blank (c : ascii) : Prop := c = " "%char \/ c = tab \/ line_end c.
Definition no_line_end (s : text) : Prop := forall c, In c s -> ~ line_end c.

Inductive gap : text -> Prop :=
| gap_nil : gap []
| gap_blank c g : blank c -> gap g -> gap (c :: g)
| gap_comment body c g : no_line_end body -> line_end c -> gap g -> gap ("#"%char :: body ++ c :: g).

(* a file may end in a comment *)
Inductive last_gap : text -> Prop :=
| last_of_gap g : gap g -> last_gap g
| last_comment g body : gap g -> no_line_end body -> last_gap (g ++ "#"%char :: body).

(* the characters that end a word or a number *)
Definition breaks (c : ascii) : Prop :=
  blank c \/ In c ["#"; ":"; "["; "]"; "{"; "}"; ","; quote; apostrophe]%char.
Definition separate (s : text) : Prop := match s with [] => True | c :: _ => breaks c end.

(* ---- words ---- *)

Definition spellings (k : keyword) : list text :=
  match k with
  | KwOut => [chars "out"]
  | KwIntegrator => [chars "integrator"]
  | KwPath => [chars "path"]
  | KwResolution => [chars "resolution"]
  | KwSpp => [chars "spp"]
  | KwWidth => [chars "width"]
  | KwHeight => [chars "height"]
  | KwValue0 => [chars "value0"]
  | KwValue1 => [chars "value1"]
  | KwSampler => [chars "sampler"]
  | KwRandom => [chars "random"]
  | KwStratified => [chars "stratified"]
  | KwFilter => [chars "filter"]
  | KwType => [chars "type"]
  | KwBox => [chars "box"]
  | KwTent => [chars "tent"; chars "triangle"]
  | KwGauss => [chars "gauss"; chars "gaussian"]
  | KwMitchell => [chars "mitchell"]
  | KwLanczos => [chars "lanczos"]
  | KwUnfiltered => [chars "unfiltered"]
  | KwTrilinear => [chars "trilinear"]
  | KwEwa => [chars "ewa"]
  | KwCamera => [chars "camera"]
  | KwPerspective => [chars "perspective"]
  | KwPanorama => [chars "panorama"]
  | KwOrthographic => [chars "orthographic"]
  | KwPosition => [chars "position"]
  | KwTarget => [chars "target"]
  | KwUp => [chars "up"]
  | KwFov => [chars "fov"]
  | KwShape => [chars "shape"]
  | KwWorld => [chars "world"]
  | KwLight => [chars "light"]
  | KwName => [chars "name"]
  | KwRotation => [chars "rotation"]
  | KwScale => [chars "scale"]
  | KwShift => [chars "shift"]
  | KwTemperature => [chars "temperature"]
  | KwMaterial => [chars "material"]
  | KwDualmaterial => [chars "dualmaterial"]
  | KwTexture => [chars "texture"]
  | KwSrc => [chars "src"]
  | KwMatte => [chars "matte"]
  | KwGlossy => [chars "glossy"]
  | KwMetal => [chars "metal"]
  | KwGlass => [chars "glass"]
  | KwIor => [chars "ior"]
  | KwRoughness => [chars "roughness"]
  | KwAnisotropy => [chars "anisotropy"]
  | KwDistribution => [chars "distribution"]
  | KwDiffuse => [chars "diffuse"]
  | KwSpecular => [chars "specular"]
  | KwNormal => [chars "normal"]
  | KwBlinn => [chars "blinn"]
  | KwBeckmann => [chars "beckmann"]
  | KwGgx => [chars "ggx"]
  | KwColor => [chars "color"]
  | KwElement => [chars "element"]
  | KwChannelR => [chars "using channel R"]
  | KwChannelG => [chars "using channel G"]
  | KwChannelB => [chars "using channel B"]
  | KwChannelA => [chars "using channel A"]
  | KwInverted => [chars "inverted"]
  | KwMask => [chars "mask"]
  | KwFirst => [chars "first"]
  | KwSecond => [chars "second"]
  end.

(* the chemical symbols in the order of metals.hpp *)
Definition symbols : list text := [
  chars "Ag"; chars "Al"; chars "Au"; chars "Cu"; chars "Fe"; chars "Hg"; chars "Pb"; chars "Pt"; chars "W"; chars "Be"; chars "Bi"; chars "Co"; chars "Cr"; chars "Ge"; chars "K"; chars "Li"; chars "Mg"; chars "Mn";
  chars "Mo"; chars "Na"; chars "Nb"; chars "Ni"; chars "Pd"; chars "Rh"; chars "Ta"; chars "Ti"; chars "V"; chars "Zn"; chars "Zr"].

(* the same letter in either case *)
Definition upper (a : ascii) : Prop := 65 <= nat_of_ascii a <= 90.
Definition same_letter (a b : ascii) : Prop :=
  a = b \/ (upper a /\ nat_of_ascii a + 32 = nat_of_ascii b) \/ (upper b /\ nat_of_ascii b + 32 = nat_of_ascii a).

(* ---- numbers ---- *)

Definition digit_char (d : nat) : ascii := ascii_of_nat (48 + d).
Definition digits (ds : list nat) : text := map digit_char ds.
Definition are_digits (ds : list nat) : Prop := ds <> [] /\ Forall (fun d => d < 10) ds.
(* the number with these decimal digits *)
Fixpoint decimal (ds : list nat) : Z :=
  match ds with
  | [] => 0
  | d :: r => Z.of_nat d * 10 ^ Z.of_nat (List.length r) + decimal r
  end%Z.

Inductive sign := NoSign | Plus | Minus.
Definition sign_text (s : sign) : text := match s with NoSign => [] | Plus => ["+"%char] | Minus => ["-"%char] end.
Definition signed (s : sign) (q : Q) : Q := match s with Minus => (- q)%Q | _ => q end.
Definition signed_z (s : sign) (z : Z) : Z := match s with Minus => (- z)%Z | _ => z end.

(* a sign, digits before and after the point, and an exponent *)
Record numeral := mk_numeral {
  nu_sign : sign; nu_whole : list nat; nu_frac : option (list nat); nu_exp : option (bool * sign * list nat) }.
Definition numeral_ok (n : numeral) : Prop :=
  Forall (fun d => d < 10) (nu_whole n) /\
  match nu_frac n with Some f => are_digits f | None => nu_whole n <> [] /\ nu_exp n <> None end /\
  match nu_exp n with Some (_, _, e) => are_digits e | None => True end.
Definition numeral_text (n : numeral) : text :=
  sign_text (nu_sign n) ++ digits (nu_whole n) ++
  match nu_frac n with Some f => "."%char :: digits f | None => [] end ++
  match nu_exp n with Some (u, s, e) => (if u then "E" else "e")%char :: sign_text s ++ digits e | None => [] end.
Definition numeral_value (n : numeral) : Q :=
  signed (nu_sign n)
    ((inject_Z (decimal (nu_whole n)) +
      match nu_frac n with Some f => inject_Z (decimal f) / inject_Z (10 ^ Z.of_nat (List.length f)) | None => 0 end) *
     match nu_exp n with Some (_, s, e) => Qpower 10 (signed_z s (decimal e)) | None => 1 end).

(* ---- words, numbers and strings ---- *)

Definition is_int (z : Z) : Prop := (- 2 ^ 31 <= z < 2 ^ 31)%Z.
(* a string that can be written between these quotes; a line cannot be continued with a backslash *)
Definition quotable (q : ascii) (s : text) : Prop :=
  ~ In q s /\ last s "a"%char <> backslash /\ (q = quote -> ~ In newline s).

Inductive written : token -> text -> Prop :=
| w_colon : written Colon [":"%char]
| w_open_sq : written OpenSq ["["%char]
| w_close_sq : written CloseSq ["]"%char]
| w_open_cu : written OpenCu ["{"%char]
| w_close_cu : written CloseCu ["}"%char]
| w_comma : written Comma [","%char]
| w_word k w : In w (spellings k) -> written (Kw k) w
| w_element n sym w : nth_error symbols n = Some sym -> Forall2 same_letter sym w -> written (Element n) w
| w_uint s ds : s <> Minus -> are_digits ds -> is_int (decimal ds) -> written (UInt (decimal ds)) (sign_text s ++ digits ds)
| w_int ds : are_digits ds -> is_int (- decimal ds) -> written (Int (- decimal ds)) ("-"%char :: digits ds)
| w_float n q : numeral_ok n -> Qred q = q -> (q == numeral_value n)%Q -> written (Float q) (numeral_text n)
| w_string c s : c = quote \/ c = apostrophe -> quotable c s -> written (Str s) (c :: s ++ [c]).

(* the tokens that need nothing after them *)
Definition closed (t : token) : Prop :=
  match t with Colon | OpenSq | CloseSq | OpenCu | CloseCu | Comma | Str _ => True | _ => False end.

(* a text that starts with these tokens and continues with a text in E *)
Inductive layout_then (E : text -> Prop) : list token -> text -> Prop :=
| layout_end s : E s -> layout_then E [] s
| layout_token t ts g w s :
    gap g -> written t w -> closed t \/ separate s -> layout_then E ts s -> layout_then E (t :: ts) (g ++ w ++ s).
Definition layout : list token -> text -> Prop := layout_then last_gap.

(* the tokens ts and then those of the rest of the text *)
Definition prepend (ts : list token) (r : res (option (list token))) : res (option (list token)) :=
  let! r := r in Ok (match r with Some r => Some (ts ++ r) | None => None end).
