(* src/materials/bdf.cpp, lambertian.cpp, multi_bsdf.cpp, single_brdf.cpp, dual.cpp and
   src/textures/mask_boolean.cpp over the real numbers.  A Spectrum is an array of floats
   combined entry by entry: one entry is modelled. *)
From Coq Require Import Reals Lra List ZArith NArith Arith.
From Verif Require Import Common RVecModel SpecularModel.
Import ListNotations.
Local Open Scope R_scope.

(* bdf.hpp:19-21 *)
Definition flag_brdf : N := 1.
Definition flag_btdf : N := 2.
Definition flag_spec : N := 4.

(* bdf.hpp: type and the three virtual functions; sampled is in SpecularModel *)
Record bdf := mk_bdf {
  b_type : N;
  b_value : rv -> rv -> R;
  b_sample : rv -> R -> R -> sampled;
  b_pdf : rv -> rv -> R }.

(* bdf.hpp: matches, is_BRDF, is_specular *)
Definition matches (b : bdf) (flags : N) : bool := N.eqb (N.land (b_type b) flags) (b_type b).
Definition is_brdf (b : bdf) : bool := negb (N.eqb (N.land (b_type b) flag_brdf) 0).
Definition is_specular (b : bdf) : bool := negb (N.eqb (N.land (b_type b) flag_spec) 0).

(* bdf.cpp:17-30: the direction of the default sampling *)
Definition cosine_direction (wo : rv) (r0 r1 : R) : rv :=
  let t := 2 * PI * r0 in
  let r := sqrt r1 in
  let x := r * cos t in
  let y := r * sin t in
  let z := sqrt (Rmax 0 (1 - x * x - y * y)) in
  RV x y (if Rlt_dec (rz wo) 0 then - z else z).
Definition default_sample (value : rv -> rv -> R) (wo : rv) (r0 r1 : R) : sampled :=
  let wi := cosine_direction wo r0 r1 in
  mk_sampled (value wo wi) (Some wi) (Rabs (rz wi) / PI).
(* bdf.cpp:32-36 *)
Definition default_pdf (wo wi : rv) : R :=
  if Rlt_dec 0 (rz wo * rz wi) then Rabs (rz wi) / PI else 0.

(* lambertian.cpp *)
Definition lambertian : bdf :=
  mk_bdf flag_brdf (fun _ _ => / PI) (default_sample (fun _ _ => / PI)) default_pdf.

(* reflection.cpp and refraction.cpp as layers: value and pdf answer zero *)
Definition conductor_bdf (ior absorption : R) : bdf :=
  mk_bdf (N.lor flag_brdf flag_spec) (fun _ _ => 0)
         (fun wo _ _ => conductor_sample ior absorption wo) (fun _ _ => 0).
Definition dielectric_bdf (eta_i eta_t : R) : bdf :=
  mk_bdf (N.lor flag_brdf flag_spec) (fun _ _ => 0)
         (fun wo _ _ => dielectric_sample eta_i eta_t wo) (fun _ _ => 0).
Definition refraction_bdf (eta_i eta_t : R) : bdf :=
  mk_bdf (N.lor flag_btdf flag_spec) (fun _ _ => 0)
         (fun wo _ _ => refraction_sample eta_i eta_t wo) (fun _ _ => 0).

(* hitpoint.hpp: the geometric normal and the surface coordinates *)
Record hit := mk_hit { h_normal : rv; h_uv : R * R }.
(* texture.hpp: Texture::map *)
Definition texture := hit -> R.

(* ----- multi_bsdf.cpp ----- *)

Definition max_bdf : nat := 5.   (* settings.h _MAX_BDF_ *)
(* bdfs[] with diffuse[], the first count entries *)
Definition multi := list (bdf * texture).

(* multi_bsdf.cpp:17-33, without DEBUG: the sixth entry is written past the arrays *)
Definition inherit_bdf (dflt : texture) (m : multi) (b : bdf) (t : option texture) : res multi :=
  if Nat.ltb (length m) max_bdf
  then Ok (m ++ [(b, match t with Some x => x | None => dflt end)])
  else UB.

(* multi_bsdf.cpp:39-42, 115-118: the side of a pair of directions *)
Definition side (h : hit) (wo wi : rv) : N :=
  if Rlt_dec 0 (rdot wi (h_normal h) * rdot wo (h_normal h)) then flag_brdf else flag_btdf.

(* multi_bsdf.cpp:35-54 *)
Definition multi_value (m : multi) (wo : rv) (h : hit) (wi : rv) (sp : shading) (match_spec : bool) : R :=
  let flags := N.lor (if match_spec then flag_spec else 0) (side h wo wi) in
  let wos := to_shading sp wo in
  let wis := to_shading sp wi in
  fold_left (fun acc (l : bdf * texture) =>
    if matches (fst l) flags then acc + b_value (fst l) wos wis * snd l h else acc) m 0.

(* what MultiBSDF::sample_value returns and writes; None for an argument left as it was *)
Record msampled := mk_msampled { ms_value : R; ms_wi : option rv; ms_pdf : R; ms_spec : option bool }.

(* multi_bsdf.cpp:83-85; r0 is not negative.  With no candidate the index is -1 in the
   code, here 0: both lie outside of the empty list. *)
Definition choose (r0 : R) (n : nat) : nat :=
  let c := Z.to_nat (Int_part (r0 * INR n)) in
  if Nat.eqb c n then pred c else c.

(* multi_bsdf.cpp:56-137; a direction that is not written is Vec3(), of length zero *)
Definition multi_sample (m : multi) (r0 r1 r2 : R) (wo : rv) (h : hit) (sp : shading)
    (match_spec : bool) : res msampled :=
  let matching := map fst (if match_spec then m else filter (fun l => negb (is_specular (fst l))) m) in
  let n := length matching in
  if andb (negb match_spec) (Nat.eqb n 0) then Ok (mk_msampled 0 None 0 None)
  else
    let c := choose r0 n in
    match nth_error matching c, nth_error m c with
    | Some b, Some (_, tex) =>
        let wos := to_shading sp wo in
        let s := b_sample b wos r1 r2 in
        let wi0 := match sm_wi s with Some w => w | None => RV 0 0 0 end in
        if Req_EM_T (rlength wi0) 0 then Ok (mk_msampled 0 None 0 None)
        else
          let wis := rnormalize wi0 in
          let wi := to_world sp wis in
          let '(value, pdf) :=
            if is_specular b then (sm_value s * tex h, sm_pdf s)
            else
              let flags := side h wi wo in
              fold_left (fun acc (l : bdf * texture) =>
                if matches (fst l) flags
                then (fst acc + b_value (fst l) wos wis * tex h, snd acc + b_pdf (fst l) wos wis)
                else acc) m (0, 0) in
          Ok (mk_msampled value (Some wi) (if Nat.ltb 1 n then pdf / INR n else pdf) (Some (is_specular b)))
    | _, _ => UB
    end.

(* multi_bsdf.cpp:139-160 *)
Definition multi_pdf (m : multi) (wo : rv) (sp : shading) (wi : rv) (match_spec : bool) : R :=
  let flags := N.lor (N.lor flag_brdf flag_btdf) (if match_spec then flag_spec else 0) in
  let wos := to_shading sp wo in
  let wis := to_shading sp wi in
  let '(n, pdf) := fold_left (fun acc (l : bdf * texture) =>
    if matches (fst l) flags then (S (fst acc), snd acc + b_pdf (fst l) wos wis) else acc) m (0%nat, 0) in
  if Nat.ltb 1 n then pdf / INR n else pdf.

(* ----- single_brdf.cpp ----- *)

(* single_brdf.cpp:6-26: a layer that is not a BRDF is replaced *)
Definition single := (bdf * texture)%type.
Definition single_new (dflt : texture) (b : bdf) (t : option texture) : single :=
  (if is_brdf b then b else lambertian, match t with Some x => x | None => dflt end).

(* single_brdf.cpp:33-50 *)
Definition single_value (s : single) (wo : rv) (h : hit) (wi : rv) (sp : shading) (match_spec : bool) : R :=
  if Rlt_dec 0 (rdot wi (h_normal h) * rdot wo (h_normal h)) then
    if matches (fst s) (N.lor (if match_spec then flag_spec else 0) flag_brdf)
    then b_value (fst s) (to_shading sp wo) (to_shading sp wi) * snd s h
    else 0
  else 0.

(* single_brdf.cpp:52-75 *)
Definition single_sample (s : single) (r1 r2 : R) (wo : rv) (h : hit) (sp : shading)
    (match_spec : bool) : msampled :=
  if andb (is_specular (fst s)) (negb match_spec) then mk_msampled 0 None 0 (Some true)
  else
    let x := b_sample (fst s) (to_shading sp wo) r1 r2 in
    let wi0 := match sm_wi x with Some w => w | None => RV 0 0 0 end in
    mk_msampled (sm_value x * snd s h) (Some (to_world sp (rnormalize wi0))) (sm_pdf x)
                (Some (is_specular (fst s))).

(* single_brdf.cpp:77-86 *)
Definition single_pdf (s : single) (wo : rv) (sp : shading) (wi : rv) (match_spec : bool) : R :=
  if andb (negb match_spec) (is_specular (fst s)) then 0
  else b_pdf (fst s) (to_shading sp wo) (to_shading sp wi).
