(* src/integrators/ray_tracer.cpp and path_tracer.cpp over the real numbers, for one wavelength:
   a spectrum is a number.  Materials, lights, occlusion and tracing are the functions of a
   scene; a vertex stands for the hit point, the ray that made it and the material there. *)
From Coq Require Import Reals List ZArith Lra Lia.
Import ListNotations.
Local Open Scope R_scope.

(* AreaLight: sample_visible_surface gives spectrum, direction, density and distance *)
Record slight (V W : Type) := mk_slight {
  sl_emission : R;
  sl_sample : V -> R -> R -> R * W * R * R;
  sl_pdf : V -> W -> R }.
Arguments mk_slight {V W}. Arguments sl_emission {V W}. Arguments sl_sample {V W}. Arguments sl_pdf {V W}.

Record scene (V W : Type) := mk_scene {
  sc_lights : list (slight V W);
  sc_hit_light : V -> option nat;      (* which light was hit, if any *)
  sc_faces : V -> bool;                (* dot(normal, wo) > 0, the shading normal *)
  sc_faces_geo : V -> bool;            (* the same with normal_h *)
  sc_value : V -> W -> R;              (* Bsdf::value, without the specular layers *)
  sc_pdf : V -> W -> R;                (* Bsdf::pdf, without the specular layers *)
  (* Bsdf::sample_value with the random numbers and the flag for specular layers:
     value, direction, density, matched specular *)
  sc_bsdf : V -> R -> R -> R -> bool -> R * W * R * bool;
  sc_absdot : V -> W -> R;
  sc_occluded : V -> W -> R -> bool;
  sc_trace : V -> W -> option V;       (* KdTree::intersect of the ray in that direction *)
  sc_luminance : R -> R }.
Arguments mk_scene {V W}. Arguments sc_lights {V W}. Arguments sc_hit_light {V W}. Arguments sc_faces {V W}.
Arguments sc_faces_geo {V W}. Arguments sc_value {V W}. Arguments sc_pdf {V W}. Arguments sc_bsdf {V W}.
Arguments sc_absdot {V W}. Arguments sc_occluded {V W}. Arguments sc_trace {V W}. Arguments sc_luminance {V W}.

(* Spectrum::is_black, spectrum.cpp:677-687; comparisons with a positive density *)
Definition black (x : R) : bool := if Req_EM_T x 0 then true else false.
Definition positive (x : R) : bool := if Rlt_dec 0 x then true else false.

Section Integ.
Context {V W : Type} (sc : scene V W).

(* asset_h->is_light() and emissive_spectrum() *)
Definition hit_emission (v : V) : R :=
  match sc_hit_light sc v with
  | Some k => match nth_error (sc_lights sc) k with Some l => sl_emission l | None => 0 end
  | None => 0
  end.

(* ray_tracer.cpp:23: the light chosen with rand[0].  The conversion to int truncates. *)
Definition choose_light (n : nat) (r : R) : nat :=
  Nat.min (Z.to_nat (Int_part (r * INR n))) (n - 1).

(* ray_tracer.cpp:32-51, light sampling for one light *)
Definition light_strategy (l : slight V W) (v : V) (r1 r2 : R) : R :=
  let '(c, wi, lpdf, dist) := sl_sample l v r1 r2 in
  if andb (positive lpdf) (negb (black c)) then
    let f := sc_value sc v wi in
    if andb (negb (black f)) (negb (sc_occluded sc v wi dist)) then
      let bpdf := sc_pdf sc v wi in
      if positive bpdf then
        let w := (lpdf * lpdf) / (lpdf * lpdf + bpdf * bpdf) in
        f * c * sc_absdot sc v wi * w / lpdf
      else 0
    else 0
  else 0.

(* ray_tracer.cpp:53-76, material sampling for the light number k *)
Definition bsdf_strategy (k : nat) (l : slight V W) (v : V) (r3 r4 r5 : R) : R :=
  let '(f, wi, bpdf, _) := sc_bsdf sc v r3 r4 r5 false in
  if andb (positive bpdf) (negb (black f)) then
    let lpdf := sl_pdf l v wi in
    if black lpdf then 0
    else
      let w := (bpdf * bpdf) / (bpdf * bpdf + lpdf * lpdf) in
      match sc_trace sc v wi with
      | None => 0
      | Some h2 =>
          match sc_hit_light sc h2 with
          | None => 0
          | Some k2 =>
              if Nat.eqb k2 k then
                if sc_faces_geo sc h2 then f * sl_emission l * sc_absdot sc v wi * w / bpdf else 0
              else 0
          end
      end
  else 0.

(* ray_tracer.cpp:6-80; rand is the sequence of random numbers that the sampler will give *)
Definition direct_l (v : V) (rand : nat -> R) : R :=
  let e := if sc_faces sc v then hit_emission v else 0 in
  let n := length (sc_lights sc) in
  match n with
  | O => e
  | _ =>
      let k := choose_light n (rand 0%nat) in
      match nth_error (sc_lights sc) k with
      | None => e
      | Some l => e + light_strategy l v (rand 1%nat) (rand 2%nat) + bsdf_strategy k l v (rand 3%nat) (rand 4%nat) (rand 5%nat)
      end
  end.

Definition shift (k : nat) (rand : nat -> R) : nat -> R := fun i => rand (k + i)%nat.

(* path_tracer.cpp:41-48: None stops the path, Some is the factor of the survivors *)
Definition roulette (ricochet : nat) (power r : R) : option R :=
  if Nat.ltb 3 ricochet then
    let term := Rmin (sc_luminance sc power) (1 / 2) in
    if Rlt_dec r term then None else Some term
  else Some 1.

Definition DEFAULT_BOUNCES : nat := 5.

(* path_tracer.cpp:13-71; None: out of fuel *)
Fixpoint l_rec (fuel ricochet : nat) (v : V) (power : R) (last_spec : bool) (rand : nat -> R) : option R :=
  match fuel with
  | O => None
  | Datatypes.S fuel =>
      let e := if andb (orb (Nat.eqb ricochet 0) last_spec) (sc_faces sc v) then power * hit_emission v else 0 in
      let ret := e + power * direct_l v rand in
      let rand := match length (sc_lights sc) with O => rand | _ => shift 6 rand end in
      match roulette ricochet power (rand 0%nat) with
      | None => Some ret
      | Some rrprob =>
          if Nat.eqb ricochet DEFAULT_BOUNCES then Some ret
          else
            let '(f, wi, pdf, spec) := sc_bsdf sc v (rand 1%nat) (rand 2%nat) (rand 3%nat) true in
            if orb (black pdf) (black f) then Some ret
            else
              let power' := power * (f * sc_absdot sc v wi / pdf * rrprob) in
              match sc_trace sc v wi with
              | None => Some ret
              | Some v2 =>
                  match l_rec fuel (Datatypes.S ricochet) v2 power' spec (shift 4 rand) with
                  | Some rec => Some (ret + rec)
                  | None => None
                  end
              end
      end
  end.

(* path_tracer.cpp:6-11 *)
Definition radiance (fuel : nat) (v : V) (rand : nat -> R) : option R := l_rec fuel 0 v 1 false rand.
End Integ.
