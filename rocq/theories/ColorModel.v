(* Colours and spectra: src/utility/color.cpp and src/utility/spectrum.cpp, over the real numbers.
   The program is compiled twice (CMakeLists.txt:83): without SPECTRAL a Spectrum is three numbers X, Y
   and Z, with SPECTRAL it is sixteen samples from 400 to 700 nm.  Rounding, overflow and the checks
   under DEBUG are left out; the tables of spectrum.cpp:83-361 that turn a colour into samples are
   parameters, those of the colour matching functions are copied. *)
From Coq Require Import Reals List.
From Verif Require Import Common.
Import ListNotations.
Local Open Scope R_scope.

(* the two programs: spectre-rgb and spectre-full *)
Inductive build := Xyz | Spectral.

(* spectrum.hpp:173-179: the number of entries of [w] *)
Definition entries (b : build) : nat := match b with Xyz => 3 | Spectral => 16 end.

(* a Spectrum: the array [w] *)
Definition spectrum := list R.

(* color.hpp: Color, ColorRGB and ColorXYZ *)
Record color := mk_color { c_r : R; c_g : R; c_b : R }.

(* spectrum.cpp:9-67, the colour matching functions *)
Definition table_x : list R :=
  [0.048547909657160444; 0.24864331478873888; 0.33913105790813763; 0.23759311571717262;
   0.068513086394717301; 0.0074335845497747266; 0.08596576422452927; 0.30151855826377871;
   0.58514208267132439; 0.88403650492429731; 1.0476295638084412; 0.91729557037353515;
   0.55824810008207959; 0.24846323480208715; 0.082662385882188882; 0.023565863414357107].
Definition table_y : list R :=
  [0.0013634899475922187; 0.010440415943351884; 0.033597446996718648; 0.077808559965342278;
   0.16970793592433134; 0.38263264827430249; 0.73335171341896055; 0.95049857179323827;
   0.98971243401368458; 0.88304891208807623; 0.67035055945316946; 0.43439004709323248;
   0.22639957609275976; 0.093565923050045963; 0.030277141408684354; 0.0085307513410225518].
Definition table_z : list R :=
  [0.23185277074575425; 1.2145957302053769; 1.7617404375473658; 1.4557389440139135;
   0.66370667571822806; 0.24021451229850452; 0.075098564475774759; 0.020824563254912696;
   0.0045391401535986612; 0.0017035374639090151; 0.00090068979518643274; 0.00025727244249234595;
   3.9191220954914268e-5; 1.964333174934533e-6; 0; 0].

(* spectrum.cpp:69 *)
Definition invy_sum : R := 0.17546832144055843.

(* the running sum of the unrolled statements x += w[i]*X[i], spectrum.cpp:589-644 and 408-419 *)
Fixpoint dot (w t : list R) (acc : R) : R :=
  match w, t with
  | a :: w, b :: t => dot w t (acc + a * b)
  | _, _ => acc
  end.

(* spectrum.cpp:586-649 *)
Definition to_xyz (b : build) (w : spectrum) : color :=
  match b with
  | Spectral => mk_color (dot w table_x 0 * invy_sum) (dot w table_y 0 * invy_sum) (dot w table_z 0 * invy_sum)
  | Xyz => mk_color (nth 0 w 0) (nth 1 w 0) (nth 2 w 0)
  end.

(* spectrum.cpp:651-675 *)
Definition luminance (b : build) (w : spectrum) : R :=
  match b with
  | Spectral => dot w table_y 0 * invy_sum
  | Xyz => nth 1 w 0
  end.

(* spectrum.cpp:457-477 *)
Definition constant (b : build) (v : R) : spectrum := repeat v (entries b).

(* spectrum.cpp:425-455; None is the exception.  In the build without SPECTRAL the first five samples
   are averaged into w[0], the next six into w[1] and the last five into w[2]. *)
Definition of_samples (b : build) (vals : list R) : option spectrum :=
  if negb (length vals =? 16)%nat then None
  else match b with
  | Spectral => Some vals
  | Xyz =>
      let add acc i v :=
        if (i <? 5)%nat then (fst (fst acc) + v, snd (fst acc), snd acc)
        else if (i <? 11)%nat then (fst (fst acc), snd (fst acc) + v, snd acc)
        else (fst (fst acc), snd (fst acc), snd acc + v) in
      let fix go i l acc := match l with [] => acc | v :: l => go (Datatypes.S i) l (add acc i v) end in
      let '(w0, w1, w2) := go O vals (0, 0, 0) in
      Some [w0 / 5; w1 / 6; w2 / 5]
  end.

(* the operators on two spectra, spectrum.cpp:726-942, entry by entry as they are unrolled *)
Definition pointwise (op : R -> R -> R) (b : build) (v w : spectrum) : spectrum :=
  map (fun i => op (nth i v 0) (nth i w 0)) (seq 0 (entries b)).

(* the operators on a spectrum and a number, spectrum.cpp:944-1158 *)
Definition pointwise1 (op : R -> R -> R) (b : build) (v : spectrum) (k : R) : spectrum :=
  map (fun i => op (nth i v 0) k) (seq 0 (entries b)).

(* -- temperatures, spectrum.cpp:368-423 -- *)

(* validator.h:43-45, spectrum.cpp:388-393 *)
Definition planck_h : R := 6.62606957e-34.
Definition boltzmann_k : R := 1.38064852e-23.
Definition light_c : R := 299792458.
Definition frc : R := 2 * planck_h * (light_c * light_c).
Definition src : R := planck_h * light_c / boltzmann_k.

(* the wavelength of a sample in metres: SPECTRUM_START*1E-9f, then += SPECTRUM_INTERVAL*1E-9f *)
Fixpoint wavelength (i : nat) : R :=
  match i with O => 400 * 1e-9 | Datatypes.S i => wavelength i + 20 * 1e-9 end.

(* spectrum.cpp:398-399 *)
Definition emission (t : Z) (i : nat) : R :=
  frc / wavelength i ^ 5 * (1 / (exp (src / (IZR t * wavelength i)) + 1)).

(* FLT_MIN, 2^-126 *)
Definition flt_min : R := / 2 ^ 126.

(* spectrum.cpp:395-401, the running maximum *)
Fixpoint greatest (l : list R) (m : R) : R :=
  match l with [] => m | v :: l => greatest l (if Rlt_dec m v then v else m) end.

(* spectrum.cpp:368-423 *)
Definition blackbody (b : build) (t : Z) : spectrum :=
  if (t =? 0)%Z then constant b 0
  else
    let values := map (emission t) (seq 0 16) in
    let maxval := greatest values flt_min in
    let values := map (fun v => v / maxval) values in
    match b with
    | Spectral => values
    | Xyz => [dot values table_x 0 * invy_sum; dot values table_y 0 * invy_sum; dot values table_z 0 * invy_sum]
    end.

(* -- colours -- *)

(* color.cpp:164-167: one channel of to_sRGB; pow is Rpower on positive numbers *)
Definition encode (v : R) : R :=
  if Rgt_dec v 0.0031308 then 1.055 * Rpower v (1 / 2.4) - 0.055 else v * 12.92.

(* color.cpp:240-243: one channel of to_XYZ *)
Definition decode (v : R) : R :=
  if Rgt_dec v 0.04045 then Rpower ((v + 0.055) / 1.055) 2.4 else v * (1 / 12.92).

(* color.cpp:160-162: the linear part of to_sRGB *)
Definition linear_srgb (c : color) : color :=
  let x := c_r c in let y := c_g c in let z := c_b c in
  mk_color (x * 3.2404542 + y * -1.5371385 + z * -0.4985314)
           (x * -0.9692660 + y * 1.8760108 + z * 0.0415560)
           (x * 0.0556434 + y * -0.2040259 + z * 1.0572252).

(* color.cpp:153-178 *)
Definition to_srgb (c : color) : color :=
  let l := linear_srgb c in mk_color (encode (c_r l)) (encode (c_g l)) (encode (c_b l)).

(* color.cpp:233-258 *)
Definition rgb_to_xyz (c : color) : color :=
  let r := decode (c_r c) in let g := decode (c_g c) in let b := decode (c_b c) in
  mk_color (r * 0.4124564 + g * 0.3575761 + b * 0.1804375)
           (r * 0.2126729 + g * 0.7151522 + b * 0.0721750)
           (r * 0.0193339 + g * 0.1191920 + b * 0.9503041).

(* color.cpp:217-223 *)
Definition rgb_of_bytes (r g b : Z) : color := mk_color (IZR r * (1 / 255)) (IZR g * (1 / 255)) (IZR b * (1 / 255)).

(* image_film.cpp:169-176: one channel of a pixel *)
Definition channel_byte (v : R) : Z := (up (Rmin (Rmax 0 v * 255) 255) - 1)%Z.

(* clamp, utility.hpp:172-181 *)
Definition clamp (v lo hi : R) : R := if Rlt_dec v lo then lo else if Rgt_dec v hi then hi else v.

(* a <= b && a <= c *)
Definition least (a b c : R) : bool := if Rle_dec a b then if Rle_dec a c then true else false else false.

(* the seven spectra of spectrum.cpp:83-361, for surfaces or for lights *)
Record basis := mk_basis { t_white : spectrum; t_cyan : spectrum; t_magenta : spectrum; t_yellow : spectrum;
  t_red : spectrum; t_green : spectrum; t_blue : spectrum }.

(* spectrum.cpp:479-584; [surf] and [lights] are the two sets of spectra *)
Definition of_rgb (b : build) (surf lights : basis) (c : color) (light : bool) : spectrum :=
  match b with
  | Xyz => let x := rgb_to_xyz c in [c_r x; c_g x; c_b x]
  | Spectral =>
      let t := if light then lights else surf in
      let plus w s k := pointwise Rplus Spectral w (pointwise1 Rmult Spectral s k) in
      let w := constant Spectral 0 in
      let r := c_r c in let g := c_g c in let bl := c_b c in
      let w :=
        if least r g bl then
          let w := plus w (t_white t) r in
          if Rle_dec g bl then plus (plus w (t_cyan t) (g - r)) (t_blue t) (bl - g)
          else plus (plus w (t_cyan t) (bl - r)) (t_green t) (g - bl)
        else if least g r bl then
          let w := plus w (t_white t) g in
          if Rle_dec r bl then plus (plus w (t_magenta t) (r - g)) (t_blue t) (bl - r)
          else plus (plus w (t_magenta t) (bl - g)) (t_red t) (r - bl)
        else
          let w := plus w (t_white t) bl in
          if Rle_dec r g then plus (plus w (t_yellow t) (r - bl)) (t_green t) (g - r)
          else plus (plus w (t_yellow t) (g - bl)) (t_red t) (r - g) in
      let w := pointwise1 Rmult Spectral w (if light then 0.86445 else 0.94) in
      map (fun v => clamp v 0 1) w
  end.

(* -- indices of refraction -- *)

(* refraction.cpp:102-122: the wavelength in micrometres, SPECTRUM_START*1E-3f and then
   += SPECTRUM_INTERVAL*1E-3f *)
Fixpoint micrometres (i : nat) : R :=
  match i with O => 400 * 1e-3 | Datatypes.S i => micrometres i + 20 * 1e-3 end.

(* the loops of refraction.cpp:103-117 and 132-147: without SPECTRAL the mean over the samples *)
Definition per_wavelength (b : build) (f : R -> R) : spectrum :=
  let vals := map (fun i => f (micrometres i)) (seq 0 16) in
  match b with
  | Spectral => vals
  | Xyz => constant Xyz (fold_left Rplus vals 0 * (1 / 16))
  end.

(* refraction.cpp:96-122 *)
Definition cauchy (b : build) (B C D : R) : spectrum :=
  per_wavelength b (fun wl => B + C / (wl * wl) + D / wl ^ 4).

(* refraction.cpp:124-152 *)
Definition sellmeier (b : build) (B1 B2 B3 C1 C2 C3 : R) : spectrum :=
  per_wavelength b (fun wl => let wl2 := wl * wl in
    sqrt (1 + B1 * wl2 / (wl2 - C1) + B2 * wl2 / (wl2 - C2) + B3 * wl2 / (wl2 - C3))).

(* the index kept by Refraction and Dielectric: refraction.cpp:6-23, fresnel_conditions.cpp:31-48 *)
Definition kept_index (b : build) (w : spectrum) : R :=
  match b with
  | Spectral => fold_left Rplus (firstn 16 w) 0 * (1 / 16)
  | Xyz => nth 0 w 0
  end.
