(* Vocabulary of the claims about layered materials. *)
From Coq Require Import Reals List Bool.
From Verif Require Import RVecModel RVecProps SpecularModel BsdfModel.
Local Open Scope R_scope.

(* the layers a query may use *)
Definition eligible (match_spec : bool) (m : multi) : multi :=
  filter (fun l => implb (is_specular (fst l)) match_spec) m.

(* r0 selects entry i of n when it falls into the i-th of n equal parts of [0,1] *)
Definition selects (r0 : R) (i n : nat) : Prop :=
  INR i / INR n <= r0 /\ (r0 < INR (S i) / INR n \/ (r0 = 1 /\ S i = n)).

(* the direction comes from layer b *)
Definition made_by (b : bdf) (wo : rv) (sp : shading) (r1 r2 : R) (out : msampled) : Prop :=
  match sm_wi (b_sample b (to_shading sp wo) r1 r2) with
  | Some w => w <> RV 0 0 0 ->
      ms_wi out = Some (to_world sp (rnormalize w)) /\ ms_spec out = Some (is_specular b)
  | None => ms_wi out = None /\ ms_value out = 0 /\ ms_pdf out = 0
  end.

(* the directions the layers sample have length one *)
Definition unit_samples (m : multi) : Prop :=
  forall l wo r1 r2 w, In l m -> 0 <= r1 <= 1 -> 0 <= r2 <= 1 -> sm_wi (b_sample (fst l) wo r1 r2) = Some w -> unit w.

(* kinds of the layers of the project: BRDF or BTDF, specular or not *)
Definition known_type (b : bdf) : Prop :=
  b_type b = 1%N \/ b_type b = 2%N \/ b_type b = 5%N \/ b_type b = 6%N.
