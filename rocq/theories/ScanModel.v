(* src/parsers/config_lexer.l: from the text of a configuration to its tokens.  Positions are in
   ErrModel.v.  The text has no NUL character (yytext is read as a C string). *)
From Coq Require Import QArith Qreduction.
From Verif Require Import Common PathModel PathSpec DriverModel.
Local Open Scope nat_scope.

(* config_parser.y:33-141: the tokens without a value *)
Inductive keyword :=
| KwOut | KwIntegrator | KwPath | KwResolution | KwSpp | KwWidth | KwHeight | KwValue0 | KwValue1
| KwSampler | KwRandom | KwStratified | KwFilter | KwType | KwBox | KwTent | KwGauss | KwMitchell
| KwLanczos | KwUnfiltered | KwTrilinear | KwEwa | KwCamera | KwPerspective | KwPanorama | KwOrthographic
| KwPosition | KwTarget | KwUp | KwFov | KwShape | KwWorld | KwLight | KwName | KwRotation | KwScale
| KwShift | KwTemperature | KwMaterial | KwDualmaterial | KwTexture | KwSrc | KwMatte | KwGlossy | KwMetal
| KwGlass | KwIor | KwRoughness | KwAnisotropy | KwDistribution | KwDiffuse | KwSpecular | KwNormal
| KwBlinn | KwBeckmann | KwGgx | KwColor | KwElement | KwChannelR | KwChannelG | KwChannelB | KwChannelA
| KwInverted | KwMask | KwFirst | KwSecond.

(* Element n is the token of the metal with that index (metals.hpp:41-73, config_parser.y:301-331).
   UINT, INT, FLOAT and STRING carry a value; a float is its exact rational value in lowest terms:
   the rounding of atof and of the conversion to float are not modelled. *)
Inductive token :=
| Colon | OpenSq | CloseSq | OpenCu | CloseCu | Comma
| Kw (k : keyword)
| Element (n : nat)
| UInt (n : Z)
| Int (n : Z)
| Float (q : Q)
| Str (s : text).

(* ---- patterns ---- *)

Definition is_digit (c : ascii) : bool := let n := nat_of_ascii c in (48 <=? n) && (n <=? 57).
Definition newline : ascii := "010".
Definition return_ : ascii := "013".
Definition tab : ascii := "009".
Definition quote : ascii := "034".
Definition apostrophe : ascii := "039".
Definition backslash : ascii := "092".

(* the definitions and rules of the scanner *)
Inductive pattern :=
| Lit (s : text)         (* the words *)
| NoCase (s : text)      (* the metals, lines 28-56: both cases of each letter *)
| PUint                  (* line 24 *)
| PInt                   (* line 25 *)
| PFloat                 (* line 26 *)
| PString                (* line 27 *)
| PComment               (* line 176 *)
| PBlank                 (* line 177 *)
| PNewline               (* line 178 *)
| PAny.                  (* line 179: every character but a newline *)

Inductive action :=
| Return (t : token) | ReturnUint | ReturnInt | ReturnFloat | ReturnString
| Skip
| Refuse.                (* driver.unknown_char, which ends the program *)

Fixpoint prefix (l s : text) : bool :=
  match l, s with
  | [], _ => true
  | a :: l, b :: s => (a =? b)%char && prefix l s
  | _, [] => false
  end.

(* a lower case letter in both cases *)
Definition lower (c : ascii) : ascii :=
  let n := nat_of_ascii c in if (65 <=? n) && (n <=? 90) then ascii_of_nat (n + 32) else c.
Fixpoint prefix_nocase (l s : text) : bool :=
  match l, s with
  | [], _ => true
  | a :: l, b :: s => (a =? lower b)%char && prefix_nocase l s
  | _, [] => false
  end.

(* how many characters at the start satisfy p *)
Fixpoint span (p : ascii -> bool) (s : text) : nat :=
  match s with
  | c :: s => if p c then S (span p s) else 0
  | [] => 0
  end.

Definition is_sign (c : ascii) : bool := (c =? "+")%char || (c =? "-")%char.
Definition is_e (c : ascii) : bool := (c =? "e")%char || (c =? "E")%char.
(* an optional sign *)
Definition sign_len (s : text) : nat := match s with c :: _ => if is_sign c then 1 else 0 | [] => 0 end.

(* [0-9]*\.[0-9]+|[0-9]+ *)
Definition mantissa_len (s : text) : nat :=
  let d := span is_digit s in
  match skipn d s with
  | c :: r => if (c =? ".")%char && (0 <? span is_digit r) then d + 1 + span is_digit r else d
  | [] => d
  end.
(* ([eE][-+]?[0-9]+)? *)
Definition exponent_len (s : text) : nat :=
  match s with
  | c :: r =>
    let k := sign_len r in
    let d := span is_digit (skipn k r) in
    if is_e c && (0 <? d) then 1 + k + d else 0
  | [] => 0
  end.
Definition float_len (s : text) : nat :=
  let k := sign_len s in
  let m := mantissa_len (skipn k s) in
  if m =? 0 then 0 else k + m + exponent_len (skipn (k + m) s).

(* line 27, first alternative, after the opening quote; n characters are matched.  A backslash takes
   the character after it, which is not a newline. *)
Fixpoint double_len (n : nat) (s : text) : nat :=
  match s with
  | [] => 0
  | c :: r =>
    if (c =? quote)%char then S n
    else if (c =? backslash)%char then
      match r with
      | d :: r => if (d =? newline)%char then 0 else double_len (S (S n)) r
      | [] => 0
      end
    else double_len (S n) r
  end.
(* line 27, second alternative, after the opening apostrophe.  There a backslash is also an ordinary
   character, so an apostrophe after a backslash ends one match and continues another one: `best` is
   the longest match yet. *)
Fixpoint single_len (escaped : bool) (n best : nat) (s : text) : nat :=
  match s with
  | [] => best
  | c :: r =>
    if (c =? apostrophe)%char then if escaped then single_len false (S n) (S n) r else S n
    else single_len (c =? backslash)%char (S n) best r
  end.

(* the length of the longest match at the start of the text, 0 without one *)
Definition match_len (p : pattern) (s : text) : nat :=
  match p with
  | Lit l => if prefix l s then List.length l else 0
  | NoCase l => if prefix_nocase l s then List.length l else 0
  | PUint =>
    match s with
    | c :: r => if (c =? "+")%char then (if span is_digit r =? 0 then 0 else S (span is_digit r)) else span is_digit s
    | [] => 0
    end
  | PInt =>
    match s with
    | c :: r => if (c =? "-")%char && negb (span is_digit r =? 0) then S (span is_digit r) else 0
    | [] => 0
    end
  | PFloat => float_len s
  | PString =>
    match s with
    | c :: r => if (c =? quote)%char then double_len 1 r
                else if (c =? apostrophe)%char then single_len false 1 0 r else 0
    | [] => 0
    end
  | PComment =>
    match s with
    | c :: r => if (c =? "#")%char then S (span (fun c => negb ((c =? newline)%char || (c =? return_)%char)) r) else 0
    | [] => 0
    end
  | PBlank => match s with c :: _ => if ((c =? " ")%char || (c =? tab)%char || (c =? return_)%char) then 1 else 0 | [] => 0 end
  | PNewline => match s with c :: _ => if (c =? newline)%char then 1 else 0 | [] => 0 end
  | PAny => match s with c :: _ => if (c =? newline)%char then 0 else 1 | [] => 0 end
  end.

(* config_lexer.l:68-142 *)
Definition words : list (pattern * action) := [
  (Lit (chars ":"), Return Colon); (Lit (chars "["), Return OpenSq); (Lit (chars "]"), Return CloseSq);
  (Lit (chars "{"), Return OpenCu); (Lit (chars "}"), Return CloseCu); (Lit (chars ","), Return Comma);
  (Lit (chars "out"), Return (Kw KwOut)); (Lit (chars "integrator"), Return (Kw KwIntegrator));
  (Lit (chars "path"), Return (Kw KwPath)); (Lit (chars "resolution"), Return (Kw KwResolution));
  (Lit (chars "spp"), Return (Kw KwSpp)); (Lit (chars "width"), Return (Kw KwWidth));
  (Lit (chars "height"), Return (Kw KwHeight)); (Lit (chars "value0"), Return (Kw KwValue0));
  (Lit (chars "value1"), Return (Kw KwValue1)); (Lit (chars "sampler"), Return (Kw KwSampler));
  (Lit (chars "random"), Return (Kw KwRandom)); (Lit (chars "stratified"), Return (Kw KwStratified));
  (Lit (chars "filter"), Return (Kw KwFilter)); (Lit (chars "type"), Return (Kw KwType));
  (Lit (chars "box"), Return (Kw KwBox)); (Lit (chars "tent"), Return (Kw KwTent));
  (Lit (chars "triangle"), Return (Kw KwTent)); (Lit (chars "gauss"), Return (Kw KwGauss));
  (Lit (chars "gaussian"), Return (Kw KwGauss)); (Lit (chars "mitchell"), Return (Kw KwMitchell));
  (Lit (chars "lanczos"), Return (Kw KwLanczos)); (Lit (chars "unfiltered"), Return (Kw KwUnfiltered));
  (Lit (chars "trilinear"), Return (Kw KwTrilinear)); (Lit (chars "ewa"), Return (Kw KwEwa));
  (Lit (chars "camera"), Return (Kw KwCamera)); (Lit (chars "perspective"), Return (Kw KwPerspective));
  (Lit (chars "panorama"), Return (Kw KwPanorama));
  (Lit (chars "orthographic"), Return (Kw KwOrthographic));
  (Lit (chars "position"), Return (Kw KwPosition)); (Lit (chars "target"), Return (Kw KwTarget));
  (Lit (chars "up"), Return (Kw KwUp)); (Lit (chars "fov"), Return (Kw KwFov));
  (Lit (chars "shape"), Return (Kw KwShape)); (Lit (chars "world"), Return (Kw KwWorld));
  (Lit (chars "light"), Return (Kw KwLight)); (Lit (chars "name"), Return (Kw KwName));
  (Lit (chars "rotation"), Return (Kw KwRotation)); (Lit (chars "scale"), Return (Kw KwScale));
  (Lit (chars "shift"), Return (Kw KwShift)); (Lit (chars "temperature"), Return (Kw KwTemperature));
  (Lit (chars "material"), Return (Kw KwMaterial));
  (Lit (chars "dualmaterial"), Return (Kw KwDualmaterial)); (Lit (chars "texture"), Return (Kw KwTexture));
  (Lit (chars "src"), Return (Kw KwSrc)); (Lit (chars "matte"), Return (Kw KwMatte));
  (Lit (chars "glossy"), Return (Kw KwGlossy)); (Lit (chars "metal"), Return (Kw KwMetal));
  (Lit (chars "glass"), Return (Kw KwGlass)); (Lit (chars "ior"), Return (Kw KwIor));
  (Lit (chars "roughness"), Return (Kw KwRoughness)); (Lit (chars "anisotropy"), Return (Kw KwAnisotropy));
  (Lit (chars "distribution"), Return (Kw KwDistribution)); (Lit (chars "diffuse"), Return (Kw KwDiffuse));
  (Lit (chars "specular"), Return (Kw KwSpecular)); (Lit (chars "bump"), Skip);
  (Lit (chars "normal"), Return (Kw KwNormal)); (Lit (chars "blinn"), Return (Kw KwBlinn));
  (Lit (chars "beckmann"), Return (Kw KwBeckmann)); (Lit (chars "ggx"), Return (Kw KwGgx));
  (Lit (chars "color"), Return (Kw KwColor)); (Lit (chars "element"), Return (Kw KwElement));
  (Lit (chars "using channel R"), Return (Kw KwChannelR));
  (Lit (chars "using channel G"), Return (Kw KwChannelG));
  (Lit (chars "using channel B"), Return (Kw KwChannelB));
  (Lit (chars "using channel A"), Return (Kw KwChannelA)); (Lit (chars "inverted"), Return (Kw KwInverted));
  (Lit (chars "mask"), Return (Kw KwMask)); (Lit (chars "first"), Return (Kw KwFirst));
  (Lit (chars "second"), Return (Kw KwSecond))].

(* config_lexer.l:147-175 *)
Definition metals : list (pattern * action) := [
  (NoCase (chars "ag"), Return (Element 0)); (NoCase (chars "al"), Return (Element 1));
  (NoCase (chars "au"), Return (Element 2)); (NoCase (chars "cu"), Return (Element 3));
  (NoCase (chars "fe"), Return (Element 4)); (NoCase (chars "hg"), Return (Element 5));
  (NoCase (chars "pb"), Return (Element 6)); (NoCase (chars "pt"), Return (Element 7));
  (NoCase (chars "w"), Return (Element 8)); (NoCase (chars "be"), Return (Element 9));
  (NoCase (chars "bi"), Return (Element 10)); (NoCase (chars "co"), Return (Element 11));
  (NoCase (chars "cr"), Return (Element 12)); (NoCase (chars "ge"), Return (Element 13));
  (NoCase (chars "k"), Return (Element 14)); (NoCase (chars "li"), Return (Element 15));
  (NoCase (chars "mg"), Return (Element 16)); (NoCase (chars "mn"), Return (Element 17));
  (NoCase (chars "mo"), Return (Element 18)); (NoCase (chars "na"), Return (Element 19));
  (NoCase (chars "nb"), Return (Element 20)); (NoCase (chars "ni"), Return (Element 21));
  (NoCase (chars "pd"), Return (Element 22)); (NoCase (chars "rh"), Return (Element 23));
  (NoCase (chars "ta"), Return (Element 24)); (NoCase (chars "ti"), Return (Element 25));
  (NoCase (chars "v"), Return (Element 26)); (NoCase (chars "zn"), Return (Element 27));
  (NoCase (chars "zr"), Return (Element 28))].

(* config_lexer.l:68-179 in order *)
Definition rules : list (pattern * action) :=
  words ++
  [(PUint, ReturnUint); (PInt, ReturnInt); (PFloat, ReturnFloat); (PString, ReturnString)] ++
  metals ++
  [(PComment, Skip); (PBlank, Skip); (PNewline, Skip); (PAny, Refuse)].

(* flex takes the longest match, and of several the first rule *)
Definition better (s : text) (best : nat * action) (r : pattern * action) : nat * action :=
  let n := match_len (fst r) s in if fst best <? n then (n, snd r) else best.
Definition longest (rs : list (pattern * action)) (s : text) : nat * action :=
  fold_left (better s) rs (0, Refuse).

(* ---- values ---- *)

Definition digit_value (c : ascii) : Z := Z.of_nat (nat_of_ascii c) - 48.
Definition digits_value (s : text) : Z := fold_left (fun a c => 10 * a + digit_value c)%Z s 0%Z.

(* atoi on a match: a value that is not an int is undefined behaviour *)
Definition atoi (s : text) : res Z :=
  let v := match s with
           | c :: r => if (c =? "-")%char then (- digits_value r)%Z
                       else if (c =? "+")%char then digits_value r else digits_value s
           | [] => 0%Z
           end in
  if ((- 2 ^ 31 <=? v) && (v <? 2 ^ 31))%Z then Ok v else UB.

(* atof on a match: sign, whole digits, digits after the point, exponent *)
Definition atof (s : text) : Q :=
  let k := sign_len s in
  let r := skipn k s in
  let d := span is_digit r in
  let whole := firstn d r in
  let r := skipn d r in
  let '(frac, r) := match r with
                    | c :: t => if (c =? ".")%char then (firstn (span is_digit t) t, skipn (span is_digit t) t) else ([], r)
                    | [] => ([], [])
                    end in
  let e := match r with
           | c :: t => let v := digits_value (skipn (sign_len t) t) in
                       match t with x :: _ => if (x =? "-")%char then (- v)%Z else v | [] => v end
           | [] => 0%Z
           end in
  let m := (inject_Z (digits_value (whole ++ frac)) * Qpower 10 (e - Z.of_nat (List.length frac)))%Q in
  Qred (match s with c :: _ => if (c =? "-")%char then (- m)%Q else m | [] => m end).

(* config_parser.y:160 and the like: substr(1, size-2) *)
Definition unquote (s : text) : text := removelast (tl s).

Definition perform (a : action) (m : text) : res (option (list token)) :=
  match a with
  | Return t => Ok (Some [t])
  | ReturnUint => let! v := atoi m in Ok (Some [UInt v])
  | ReturnInt => let! v := atoi m in Ok (Some [Int v])
  | ReturnFloat => Ok (Some [Float (atof m)])
  | ReturnString => Ok (Some [Str (unquote m)])
  | Skip => Ok (Some [])
  | Refuse => Ok None
  end.

(* the tokens of a text; None: the program ends at an unknown character *)
Fixpoint scan_from (fuel : nat) (s : text) : res (option (list token)) :=
  match fuel, s with
  | _, [] => Ok (Some [])
  | O, _ => OutOfFuel
  | S fuel, _ =>
    let '(n, a) := longest rules s in
    let! t := perform a (firstn n s) in
    match t with
    | None => Ok None
    | Some t =>
      let! r := scan_from fuel (skipn n s) in
      Ok (match r with Some r => Some (t ++ r) | None => None end)
    end
  end.
Definition scan (s : text) : res (option (list token)) := scan_from (List.length s) s.
