(* C47, C71, C72, C73: layered and single materials, the default sampling. *)
From Coq Require Import Reals Lra List ZArith NArith Arith Lia Bool.
From Verif Require Import Common RVecModel RVecProps SpecularModel BsdfModel BsdfSpec.
Import ListNotations.
Local Open Scope R_scope.

(* ----- choosing a layer ----- *)

Lemma choose_range : forall r0 n i, 0 <= r0 <= 1 -> (0 < n)%nat -> choose r0 n = i ->
  (i < n)%nat /\ selects r0 i n.
Proof.
  intros r0 n i B N E; unfold choose in E.
  assert (NP : 0 < INR n) by (apply lt_0_INR, N).
  set (x := r0 * INR n) in *.
  assert (X0 : 0 <= x) by (apply Rmult_le_pos; lra).
  assert (X1 : x <= INR n) by (unfold x; rewrite <- (Rmult_1_l (INR n)) at 2; apply Rmult_le_compat_r; lra).
  destruct (base_Int_part x) as [L G].
  assert (IP : (0 <= Int_part x)%Z) by (apply Zlt_succ_le, lt_IZR; rewrite succ_IZR; lra).
  set (c := Z.to_nat (Int_part x)) in *.
  assert (C : INR c = IZR (Int_part x)) by (unfold c; rewrite INR_IZR_INZ, Z2Nat.id by exact IP; reflexivity).
  assert (CN : (c <= n)%nat) by (apply INR_le; lra).
  assert (QL : forall a, a <= x -> a / INR n <= r0).
  { intros a A; apply (Rmult_le_reg_r (INR n)); [exact NP |].
    unfold Rdiv; rewrite Rmult_assoc, Rinv_l by lra; fold x; lra. }
  assert (QG : forall a, x < a -> r0 < a / INR n).
  { intros a A; apply (Rmult_lt_reg_r (INR n)); [exact NP |].
    unfold Rdiv; rewrite Rmult_assoc, Rinv_l by lra; fold x; lra. }
  destruct (Nat.eqb_spec c n) as [EQ | NE].
  - assert (IN : (S i = n)%nat) by lia.
    split; [lia |]; unfold selects; split.
    + apply QL; rewrite <- IN, S_INR in X1; rewrite EQ, <- IN, S_INR in C; lra.
    + right; split; [| exact IN].
      assert (x = INR n) by (rewrite EQ in C; lra).
      apply (Rmult_eq_reg_r (INR n)); [fold x; lra | lra].
  - split; [lia |]; subst i; unfold selects; split; [apply QL; lra |].
    left; apply QG; rewrite S_INR; lra.
Qed.

Lemma selects_fun : forall r0 n i j, (0 < n)%nat -> (i < n)%nat -> (j < n)%nat ->
  selects r0 i n -> selects r0 j n -> i = j.
Proof.
  assert (H : forall r0 n i j, (0 < n)%nat -> (i < n)%nat -> (j < n)%nat -> selects r0 i n -> selects r0 j n -> (i <= j)%nat).
  { intros r0 n i j N I J [A _] [_ [B | [B C]]]; [| lia].
    assert (NP : 0 < INR n) by (apply lt_0_INR, N).
    assert (L : INR i < INR (S j)).
    { apply (Rmult_lt_reg_r (/ INR n)); [apply Rinv_0_lt_compat, NP |].
      unfold Rdiv in *; lra. }
    apply INR_lt in L; lia. }
  intros r0 n i j N I J A B; apply Nat.le_antisymm; eapply H; eauto.
Qed.

Lemma length_zero : forall v, rlength v = 0 <-> v = RV 0 0 0.
Proof.
  intro v; unfold rlength; split.
  - intro E; apply rdot_zero, sqrt_eq_0; [apply rdot_pos | exact E].
  - intros ->; unfold rdot; cbn; replace (0 * 0 + 0 * 0 + 0 * 0) with 0 by ring; apply sqrt_0.
Qed.

Lemma eligible_eq : forall ms m,
  (if ms : bool then m else filter (fun l => negb (is_specular (fst l))) m) = eligible ms m.
Proof.
  intros [|] m; unfold eligible.
  - induction m as [|l m IH]; [reflexivity |]; cbn [filter].
    replace (implb (is_specular (fst l)) true) with true by (destruct (is_specular (fst l)); reflexivity).
    rewrite <- IH; reflexivity.
  - apply filter_ext; intro l; destruct (is_specular (fst l)); reflexivity.
Qed.

Lemma filter_length_le : forall A (f : A -> bool) l, (length (filter f l) <= length l)%nat.
Proof. intros A f l; induction l as [|a l IH]; cbn; [lia | destruct (f a); cbn; lia]. Qed.

(* C47.  For every random number in [0, 1] sampling answers from an eligible layer: the
   one whose part of [0, 1] holds r0.  When specular layers are excluded and there is no
   other, it answers nothing. *)
Theorem multi_sample_layer : forall m r0 r1 r2 wo h sp ms,
  0 <= r0 <= 1 -> (ms = true -> m <> []) ->
  exists out, multi_sample m r0 r1 r2 wo h sp ms = Ok out /\
    (eligible ms m = [] -> out = mk_msampled 0 None 0 None) /\
    (eligible ms m <> [] -> exists i l, nth_error (eligible ms m) i = Some l /\
       selects r0 i (length (eligible ms m)) /\ In l m /\ (is_specular (fst l) = true -> ms = true) /\
       made_by (fst l) wo sp r1 r2 out) /\
    (forall i l, nth_error (eligible ms m) i = Some l -> selects r0 i (length (eligible ms m)) ->
       made_by (fst l) wo sp r1 r2 out).
Proof.
  intros m r0 r1 r2 wo h sp ms B NE; unfold multi_sample; rewrite eligible_eq, map_length.
  set (el := eligible ms m).
  assert (LE : (length el <= length m)%nat) by apply filter_length_le.
  destruct el as [|l0 el'] eqn:EL.
  - destruct ms.
    + exfalso; apply (NE eq_refl); unfold el in EL; rewrite <- (eligible_eq true m) in EL; exact EL.
    + cbn [negb length Nat.eqb andb]; exists (mk_msampled 0 None 0 None).
      split; [reflexivity | split; [reflexivity | split; [congruence |]]].
      intros i l E; destruct i; discriminate E.
  - rewrite <- EL in *.
    assert (N : (0 < length el)%nat) by (rewrite EL; cbn; lia).
    replace (andb (negb ms) (Nat.eqb (length el) 0)) with false
      by (symmetry; apply andb_false_intro2, Nat.eqb_neq; lia).
    destruct (choose_range r0 (length el) _ B N eq_refl) as [CL SEL].
    set (c := choose r0 (length el)) in *.
    destruct (nth_error el c) as [l|] eqn:EC; [| apply nth_error_None in EC; lia].
    rewrite (map_nth_error fst _ _ EC).
    destruct (nth_error m c) as [[b' tex]|] eqn:EM; [| apply nth_error_None in EM; lia].
    assert (INL : In l m /\ (is_specular (fst l) = true -> ms = true)).
    { apply nth_error_In, filter_In in EC; destruct EC as [I F]; split; [exact I |].
      intro S; rewrite S in F; exact F. }
    assert (GOAL : exists out, 
      (let s := b_sample (fst l) (to_shading sp wo) r1 r2 in
        let wi0 := match sm_wi s with Some w => w | None => RV 0 0 0 end in
        if Req_EM_T (rlength wi0) 0 then Ok (mk_msampled 0 None 0 None)
        else
          let wis := rnormalize wi0 in
          let wi := to_world sp wis in
          let '(value, pdf) :=
            if is_specular (fst l) then (sm_value s * tex h, sm_pdf s)
            else
              let flags := side h wi wo in
              fold_left (fun acc (l : bdf * texture) =>
                if matches (fst l) flags
                then (fst acc + b_value (fst l) (to_shading sp wo) wis * tex h, snd acc + b_pdf (fst l) (to_shading sp wo) wis)
                else acc) m (0, 0) in
          Ok (mk_msampled value (Some wi) (if Nat.ltb 1 (length el) then pdf / INR (length el) else pdf) (Some (is_specular (fst l))))) = Ok out
      /\ made_by (fst l) wo sp r1 r2 out).
    { cbv zeta; unfold made_by; destruct (sm_wi (b_sample (fst l) (to_shading sp wo) r1 r2)) as [w|].
      - destruct (Req_EM_T (rlength w) 0) as [Z | Z].
        + exists (mk_msampled 0 None 0 None); split; [reflexivity |]; intro W; exfalso; apply W, length_zero, Z.
        + match goal with |- context [let '(v, p) := ?X in _] => destruct X as [v p] end.
          eexists; split; [reflexivity |]; intros _; split; reflexivity.
      - destruct (Req_EM_T (rlength (RV 0 0 0)) 0) as [Z | Z]; [| exfalso; apply Z, length_zero; reflexivity].
        exists (mk_msampled 0 None 0 None); split; [reflexivity | cbn; auto]. }
    destruct GOAL as (out & EQ & MB).
    exists out; split; [exact EQ | split; [intro Z; rewrite Z in N; cbn in N; lia |]].
    split.
    + intros _; exists c, l; tauto.
    + intros i l' EI SI.
      assert (i = c) as ->.
      { apply (selects_fun r0 (length el)); try assumption.
        apply nth_error_Some; rewrite EI; discriminate. }
      rewrite EC in EI; injection EI as <-; exact MB.
Qed.
Print Assumptions multi_sample_layer.
Example multi_sample_layer_ex : selects (3 / 4) 1 (length (eligible false
  [(lambertian, fun _ => 1); (conductor_bdf 1 1, fun _ => 1); (lambertian, fun _ => 2)])).
Proof. unfold eligible, selects; cbn; lra. Qed.

(* C47.  A material without layers reads matching[-1] when specular layers count. *)
Theorem multi_empty_refuted : forall r0 r1 r2 wo h sp, multi_sample [] r0 r1 r2 wo h sp true = UB.
Proof.
  intros; unfold multi_sample; cbn [map length negb andb].
  destruct (nth_error _ _) as [b|] eqn:E; [| reflexivity].
  destruct (choose r0 0); discriminate E.
Qed.
Print Assumptions multi_empty_refuted.

(* ----- value and density of the sampled direction ----- *)

Lemma side_sym : forall h a b, side h a b = side h b a.
Proof. intros; unfold side; rewrite Rmult_comm; reflexivity. Qed.

(* a sampled non-specular direction: where it comes from *)
Lemma sample_inv : forall m r0 r1 r2 wo h sp ms out wi,
  0 <= r1 <= 1 -> 0 <= r2 <= 1 -> orthonormal sp -> unit_samples m -> multi_sample m r0 r1 r2 wo h sp ms = Ok out ->
  ms_wi out = Some wi -> ms_spec out = Some false ->
  exists tex wis, nth_error (map snd m) (choose r0 (length (eligible ms m))) = Some tex /\
    unit wis /\ unit wi /\ wi = to_world sp wis /\ to_shading sp wi = wis /\
    (ms_value out, ms_pdf out) =
      (let '(v, p) := fold_left (fun acc (l : bdf * texture) =>
         if matches (fst l) (side h wo wi)
         then (fst acc + b_value (fst l) (to_shading sp wo) wis * tex h,
               snd acc + b_pdf (fst l) (to_shading sp wo) wis)
         else acc) m (0, 0) in
       (v, if Nat.ltb 1 (length (eligible ms m)) then p / INR (length (eligible ms m)) else p)).
Proof.
  intros m r0 r1 r2 wo h sp ms out wi B1 B2 O U E EW ES; unfold multi_sample in E.
  rewrite eligible_eq, map_length in E; set (el := eligible ms m) in *.
  destruct (andb (negb ms) (Nat.eqb (length el) 0)); [injection E as <-; discriminate EW |].
  set (c := choose r0 (length el)) in *.
  destruct (nth_error (map fst el) c) as [b|] eqn:EC; [| discriminate E].
  destruct (nth_error m c) as [[b' tex]|] eqn:EM; [| discriminate E].
  cbv zeta in E.
  destruct (sm_wi (b_sample b (to_shading sp wo) r1 r2)) as [w|] eqn:EB.
  2: { destruct (Req_EM_T (rlength (RV 0 0 0)) 0) as [Z | Z];
         [injection E as <-; discriminate EW | exfalso; apply Z, length_zero; reflexivity]. }
  destruct (Req_EM_T (rlength w) 0) as [Z | Z]; [injection E as <-; discriminate EW |].
  assert (UW : unit w).
  { assert (I : exists l, In l m /\ fst l = b).
    { apply nth_error_In, in_map_iff in EC; destruct EC as (l & <- & I); exists l; split; [| reflexivity].
      unfold el, eligible in I; apply filter_In in I; tauto. }
    destruct I as (l & IL & <-); exact (U l _ _ _ w IL B1 B2 EB). }
  rewrite (normalize_unit w UW) in E.
  destruct (is_specular b); [injection E as <-; discriminate ES |].
  exists tex, w; split; [rewrite (map_nth_error snd _ _ EM); reflexivity |].
  destruct (shading_inverse sp w O UW) as (S1 & _ & S2 & _).
  match type of E with (let '(v, p) := ?X in _) = _ => destruct X as [v p] eqn:F end.
  injection E as <-; cbn [ms_wi ms_value ms_pdf] in *; injection EW as <-.
  split; [exact UW | split; [exact S2 | split; [reflexivity | split; [exact S1 |]]]].
  rewrite (side_sym h wo), F; reflexivity.
Qed.

Lemma fold_value : forall flags h wos wis c (m : multi) a p,
  (forall l, In l m -> snd l h = c) ->
  fst (fold_left (fun acc (l : bdf * texture) =>
         if matches (fst l) flags
         then (fst acc + b_value (fst l) wos wis * c, snd acc + b_pdf (fst l) wos wis)
         else acc) m (a, p)) =
  fold_left (fun acc (l : bdf * texture) =>
    if matches (fst l) flags then acc + b_value (fst l) wos wis * snd l h else acc) m a.
Proof.
  intros flags h wos wis c m; induction m as [|l m IH]; intros a p T; [reflexivity |]; cbn [fold_left].
  destruct (matches (fst l) flags); cbn [fst snd];
    rewrite IH by (intros; apply T; right; assumption); [| reflexivity].
  rewrite (T l (or_introl eq_refl)); reflexivity.
Qed.

(* C47.  The value of a sampled non-specular direction is the one value() gives, if all
   textures agree at the hit; missing: textures that differ (refuted below). *)
Theorem multi_value_partial : forall m r0 r1 r2 wo h sp ms out wi c,
  0 <= r1 <= 1 -> 0 <= r2 <= 1 -> orthonormal sp -> unit_samples m -> (forall l, In l m -> snd l h = c) ->
  multi_sample m r0 r1 r2 wo h sp ms = Ok out -> ms_wi out = Some wi -> ms_spec out = Some false ->
  ms_value out = multi_value m wo h wi sp false.
Proof.
  intros m r0 r1 r2 wo h sp ms out wi c B1 B2 O U T E EW ES.
  destruct (sample_inv _ _ _ _ _ _ _ _ _ _ B1 B2 O U E EW ES) as (tex & wis & ET & _ & _ & _ & S & EQ).
  assert (TC : tex h = c).
  { apply nth_error_In, in_map_iff in ET; destruct ET as (l & <- & I); apply T, I. }
  rewrite TC in EQ; unfold multi_value; rewrite S; cbn [N.lor].
  rewrite <- (fold_value (side h wo wi) h (to_shading sp wo) wis c m 0 0 T).
  destruct (fold_left _ m (0, 0)) as [v p] in *; cbn [fst]; injection EQ as -> _; reflexivity.
Qed.
Print Assumptions multi_value_partial.

Lemma cosine_parts : forall wo r0 r1, 0 <= r1 <= 1 ->
  let w := cosine_direction wo r0 r1 in
  unit w /\ rz w * rz w = 1 - r1 /\ Rabs (rz w) = sqrt (1 - r1) /\
  (0 <= rz wo -> rz w = sqrt (1 - r1)) /\ (rz wo < 0 -> rz w = - sqrt (1 - r1)).
Proof.
  intros wo r0 r1 B; cbv zeta; unfold cosine_direction.
  set (t := 2 * PI * r0).
  assert (XY : sqrt r1 * cos t * (sqrt r1 * cos t) + sqrt r1 * sin t * (sqrt r1 * sin t) = r1).
  { replace (sqrt r1 * cos t * (sqrt r1 * cos t) + sqrt r1 * sin t * (sqrt r1 * sin t))
      with ((sqrt r1 * sqrt r1) * (Rsqr (sin t) + Rsqr (cos t))) by (unfold Rsqr; ring).
    rewrite sin2_cos2, sqrt_sqrt by lra; ring. }
  replace (1 - sqrt r1 * cos t * (sqrt r1 * cos t) - sqrt r1 * sin t * (sqrt r1 * sin t)) with (1 - r1) by lra.
  rewrite Rmax_right by lra; cbn [rx ry rz].
  assert (SS : sqrt (1 - r1) * sqrt (1 - r1) = 1 - r1) by (apply sqrt_sqrt; lra).
  pose proof (sqrt_pos (1 - r1)) as SP.
  unfold unit, rdot; cbn [rx ry rz]; destruct (Rlt_dec (rz wo) 0) as [N | N].
  - split; [rewrite XY; lra | split; [lra | split; [| split; intro; lra]]].
    rewrite Rabs_Ropp; apply Rabs_pos_eq, SP.
  - split; [rewrite XY; lra | split; [lra | split; [| split; intro; lra]]].
    apply Rabs_pos_eq, SP.
Qed.

Lemma lambertian_unit : forall wo r1 r2 w, 0 <= r2 <= 1 -> sm_wi (b_sample lambertian wo r1 r2) = Some w -> unit w.
Proof.
  intros wo r1 r2 w B E; cbn in E; injection E as <-; apply cosine_parts; exact B.
Qed.

(* two diffuse layers *)
Definition coats (t0 t1 : texture) : multi := [(lambertian, t0); (lambertian, t1)].

Lemma unit_height : forall sp wo, orthonormal sp -> unit wo -> rz (to_shading sp wo) = rdot wo (sh_n sp).
Proof.
  intros sp wo O U; destruct (shading_inverse sp wo O U) as (_ & B & _ & D).
  destruct (world_unit sp _ O D) as (W & _ & _ & C).
  unfold to_world in B; rewrite (normalize_unit _ W) in B; rewrite B in C; symmetry; exact C.
Qed.

Lemma coat_sample : forall (m : multi) tex r0 r1 r2 wo h sp ms,
  0 <= r0 <= 1 -> 0 <= r2 < 1 -> orthonormal sp -> h_normal h = sh_n sp -> unit wo ->
  rdot wo (sh_n sp) <> 0 ->
  nth_error (map fst (eligible ms m)) (choose r0 (length (eligible ms m))) = Some lambertian ->
  nth_error m (choose r0 (length (eligible ms m))) = Some (fst tex, snd tex) ->
  let w := cosine_direction (to_shading sp wo) r1 r2 in
  let wi := to_world sp w in
  unit w /\ to_shading sp wi = w /\ side h wo wi = flag_brdf /\
  exists out, multi_sample m r0 r1 r2 wo h sp ms = Ok out /\ ms_wi out = Some wi /\
    ms_spec out = Some false /\
    ms_value out = fst (fold_left (fun acc (l : bdf * texture) =>
      if matches (fst l) flag_brdf
      then (fst acc + b_value (fst l) (to_shading sp wo) w * snd tex h,
            snd acc + b_pdf (fst l) (to_shading sp wo) w) else acc) m (0, 0)).
Proof.
  intros m tex r0 r1 r2 wo h sp ms B0 B2 O HN U NZ E1 E2 w wi.
  destruct (cosine_parts (to_shading sp wo) r1 r2 ltac:(lra)) as (UW & ZZ & _ & ZP & ZN).
  fold w in UW, ZZ, ZP, ZN.
  destruct (shading_inverse sp w O UW) as (S1 & _ & S2 & _); fold wi in S1, S2.
  assert (HI : rdot wi (sh_n sp) = rz w) by (rewrite <- (unit_height sp wi O S2), S1; reflexivity).
  assert (SD : side h wo wi = flag_brdf).
  { unfold side; rewrite HN, HI; rewrite <- (unit_height sp wo O U) in *.
    assert (SP : 0 < sqrt (1 - r2)) by (apply sqrt_lt_R0; lra).
    destruct (Rlt_dec 0 (rz w * rz (to_shading sp wo))) as [_ | N]; [reflexivity | exfalso; apply N].
    destruct (Rlt_dec (rz (to_shading sp wo)) 0) as [L | L].
    - rewrite (ZN L); replace (- sqrt (1 - r2) * rz (to_shading sp wo))
        with (sqrt (1 - r2) * - rz (to_shading sp wo)) by ring.
      apply Rmult_lt_0_compat; lra.
    - rewrite ZP by lra; apply Rmult_lt_0_compat; lra. }
  split; [exact UW | split; [exact S1 | split; [exact SD |]]].
  unfold multi_sample; rewrite eligible_eq, map_length; set (el := eligible ms m) in *.
  assert (N0 : length el <> 0%nat).
  { intro Z; destruct el; [| discriminate Z]; destruct (choose r0 (length [])); discriminate E1. }
  replace (andb (negb ms) (Nat.eqb (length el) 0)) with false
    by (symmetry; apply andb_false_intro2, Nat.eqb_neq, N0).
  rewrite E1, E2; cbn [b_sample lambertian default_sample sm_wi]; fold w.
  destruct (Req_EM_T (rlength w) 0) as [Z | _].
  { exfalso; apply length_zero in Z; rewrite Z in UW; unfold unit, rdot in UW; cbn in UW; lra. }
  cbv zeta; rewrite (normalize_unit w UW); fold wi; rewrite (side_sym h wi wo), SD.
  change (is_specular lambertian) with false; cbv iota.
  match goal with |- context [let '(v, p) := ?X in _] => destruct X as [v p] eqn:F end.
  eexists; split; [reflexivity | split; [reflexivity | split; [reflexivity |]]].
  cbn [ms_value]; reflexivity.
Qed.

Lemma coats_unit : forall t0 t1, unit_samples (coats t0 t1).
Proof.
  intros t0 t1 l wo r1 r2 w [<- | [<- | []]] B1 B2 E; exact (lambertian_unit wo r1 r2 w B2 E).
Qed.
Example multi_value_ex : unit_samples (coats (fun _ => 1 / 2) (fun _ => 1 / 2)) /\
  (forall l, In l (coats (fun _ => 1 / 2) (fun _ => 1 / 2)) -> snd l (mk_hit (RV 0 0 1) (0, 0)) = 1 / 2) /\
  exists out, multi_sample (coats (fun _ => 1 / 2) (fun _ => 1 / 2)) 0 0 0 (RV 0 0 1)
    (mk_hit (RV 0 0 1) (0, 0)) (shading_of (RV 1 0 0) (RV 0 0 1)) false = Ok out.
Proof.
  split; [apply coats_unit | split; [intros l [<- | [<- | []]]; reflexivity |]].
  destruct (multi_sample_layer (coats (fun _ => 1 / 2) (fun _ => 1 / 2)) 0 0 0 (RV 0 0 1)
    (mk_hit (RV 0 0 1) (0, 0)) (shading_of (RV 1 0 0) (RV 0 0 1)) false) as (out & E & _);
    [lra | discriminate |]; exists out; exact E.
Qed.

(* C47.  With two diffuse coats of different colour at the hit, the value of every
   sampled direction differs from value(): every coat is tinted with the texture of the
   chosen one. *)
Theorem multi_texture_refuted : forall t0 t1 r0 r1 r2 wo h sp ms,
  0 <= r0 <= 1 -> 0 <= r2 < 1 -> orthonormal sp -> h_normal h = sh_n sp -> unit wo ->
  rdot wo (sh_n sp) <> 0 -> t0 h <> t1 h ->
  exists out wi, multi_sample (coats t0 t1) r0 r1 r2 wo h sp ms = Ok out /\ ms_wi out = Some wi /\
    ms_spec out = Some false /\ ms_value out <> multi_value (coats t0 t1) wo h wi sp ms.
Proof.
  intros t0 t1 r0 r1 r2 wo h sp ms B0 B2 O HN U NZ NE.
  assert (EL : eligible ms (coats t0 t1) = coats t0 t1) by (destruct ms; reflexivity).
  destruct (choose_range r0 2 _ B0 ltac:(lia) eq_refl) as [C _].
  assert (EC : exists tex, nth_error (coats t0 t1) (choose r0 2) = Some (lambertian, tex) /\ (tex = t0 \/ tex = t1)).
  { destruct (choose r0 2) as [|[|c]]; [exists t0 | exists t1 | lia]; cbn; auto. }
  destruct EC as (tex & EC & TX).
  destruct (coat_sample (coats t0 t1) (lambertian, tex) r0 r1 r2 wo h sp ms B0 B2 O HN U NZ)
    as (UW & S1 & SD & out & EO & EW & ES & EV).
  { rewrite EL; change (length (coats t0 t1)) with 2%nat; apply (map_nth_error fst) in EC; exact EC. }
  { rewrite EL; exact EC. }
  exists out; eexists; split; [exact EO | split; [exact EW | split; [exact ES |]]].
  rewrite EV; unfold multi_value; rewrite SD.
  assert (M : forall f, matches lambertian (N.lor f flag_brdf) = true).
  { intro f; unfold matches; cbn [b_type lambertian]; apply N.eqb_eq.
    unfold flag_brdf; apply N.bits_inj; intro i; rewrite N.land_spec, N.lor_spec.
    destruct (N.testbit 1 i); [rewrite orb_true_r; reflexivity | reflexivity]. }
  unfold coats; cbn [fold_left fst snd]; rewrite !M.
  change (matches lambertian flag_brdf) with true; cbn [fst snd b_value lambertian].
  pose proof PI_RGT_0 as P; assert (I : 0 < / PI) by (apply Rinv_0_lt_compat, P).
  intro X; apply NE.
  assert (K : / PI * (t0 h - t1 h) = 0) by (destruct TX as [-> | ->]; lra).
  apply Rmult_integral in K; destruct K; lra.
Qed.
Print Assumptions multi_texture_refuted.
Example multi_texture_ex : orthonormal (shading_of (RV 1 0 0) (RV 0 0 1)) /\ unit (RV 0 0 1) /\
  h_normal (mk_hit (RV 0 0 1) (0, 0)) = sh_n (shading_of (RV 1 0 0) (RV 0 0 1)) /\
  rdot (RV 0 0 1) (sh_n (shading_of (RV 1 0 0) (RV 0 0 1))) <> 0.
Proof.
  split; [apply shading_orthonormal; unfold unit, rdot; cbn; ring |].
  split; [unfold unit, rdot; cbn; ring |].
  split; [reflexivity | unfold rdot; cbn; lra].
Qed.

(* C47.  With specular layers excluded the diffuse coat behind a mirror is tinted with the
   texture of the mirror. *)
Theorem multi_mirror_texture_refuted : forall a b t0 t1 r0 r1 r2 wo h sp,
  0 <= r0 <= 1 -> 0 <= r2 < 1 -> orthonormal sp -> h_normal h = sh_n sp -> unit wo ->
  rdot wo (sh_n sp) <> 0 ->
  exists out wi, multi_sample [(conductor_bdf a b, t0); (lambertian, t1)] r0 r1 r2 wo h sp false = Ok out /\
    ms_wi out = Some wi /\ ms_value out = t0 h / PI /\
    multi_value [(conductor_bdf a b, t0); (lambertian, t1)] wo h wi sp false = t1 h / PI.
Proof.
  intros a b t0 t1 r0 r1 r2 wo h sp B0 B2 O HN U NZ.
  destruct (choose_range r0 1 _ B0 ltac:(lia) eq_refl) as [C _].
  assert (C0 : choose r0 1 = 0%nat) by lia.
  destruct (coat_sample [(conductor_bdf a b, t0); (lambertian, t1)] (conductor_bdf a b, t0)
              r0 r1 r2 wo h sp false B0 B2 O HN U NZ)
    as (UW & S1 & SD & out & EO & EW & ES & EV).
  { change (eligible false [(conductor_bdf a b, t0); (lambertian, t1)]) with [(lambertian, t1)];
      cbn [length]; rewrite C0; reflexivity. }
  { change (eligible false [(conductor_bdf a b, t0); (lambertian, t1)]) with [(lambertian, t1)];
      cbn [length]; rewrite C0; reflexivity. }
  exists out; eexists; split; [exact EO | split; [exact EW |]].
  rewrite EV; unfold multi_value; rewrite SD; cbn [fold_left fst snd].
  change (matches (conductor_bdf a b) flag_brdf) with false.
  change (matches (conductor_bdf a b) (N.lor 0 flag_brdf)) with false.
  change (matches lambertian flag_brdf) with true.
  change (matches lambertian (N.lor 0 flag_brdf)) with true.
  cbn [fst snd b_value lambertian]; split; unfold Rdiv; ring.
Qed.
Print Assumptions multi_mirror_texture_refuted.

(* ----- densities ----- *)

Lemma spec_match : forall b f, known_type b -> is_specular b = false -> matches b (N.lor (N.lor flag_brdf flag_btdf) f) = true.
Proof.
  intros b f [E | [E | [E | E]]]; unfold is_specular, matches; rewrite E; intro S; try discriminate S;
    apply N.eqb_eq, N.bits_inj; intro i; rewrite N.land_spec, !N.lor_spec;
    unfold flag_brdf, flag_btdf;
    destruct (N.testbit 1 i) eqn:A, (N.testbit 2 i) eqn:C; cbn; try reflexivity; rewrite ?A, ?C; reflexivity.
Qed.

Lemma fold_pdf : forall (ms : bool) fl wos wis (c : texture) h (m : multi) v n p,
  (forall l, In l m -> known_type (fst l)) ->
  (fl = flag_brdf \/ fl = flag_btdf) ->
  (forall l, In l m -> matches (fst l) fl = false -> b_pdf (fst l) wos wis = 0) ->
  fold_left (fun acc (l : bdf * texture) =>
    if matches (fst l) (N.lor (N.lor flag_brdf flag_btdf) (if ms then flag_spec else 0%N))
    then (S (fst acc), snd acc + b_pdf (fst l) wos wis) else acc) m (n, p) =
  ((n + length (eligible ms m))%nat,
   snd (fold_left (fun acc (l : bdf * texture) =>
         if matches (fst l) fl
         then (fst acc + b_value (fst l) wos wis * c h, snd acc + b_pdf (fst l) wos wis)
         else acc) m (v, p))).
Proof.
  intros ms fl wos wis c h m; induction m as [|l m IH]; intros v n p K F Z; cbn [fold_left].
  - cbn; f_equal; lia.
  - assert (KL := K l (or_introl eq_refl)); assert (ZL := Z l (or_introl eq_refl)).
    assert (IH' : forall v n p, _) by (intros v' n' p'; exact (IH v' n' p' (fun l I => K l (or_intror I)) F (fun l I => Z l (or_intror I)))).
    unfold eligible; cbn [filter]; fold (eligible ms m).
    assert (SP : is_specular (fst l) = true -> matches (fst l) fl = false).
    { intro S; unfold is_specular, matches in *.
      destruct KL as [E | [E | [E | E]]], F as [-> | ->]; rewrite E in *; try discriminate S; reflexivity. }
    assert (MA : matches (fst l) (N.lor (N.lor flag_brdf flag_btdf) (if ms then flag_spec else 0%N)) =
                 implb (is_specular (fst l)) ms).
    { unfold matches, is_specular; destruct KL as [E | [E | [E | E]]]; rewrite E; destruct ms; reflexivity. }
    rewrite MA; destruct (implb (is_specular (fst l)) ms) eqn:IM.
    + cbn [fst snd length]; destruct (matches (fst l) fl) eqn:M.
      * cbn [fst snd]; rewrite (IH' (v + b_value (fst l) wos wis * c h)); f_equal; lia.
      * rewrite ZL by reflexivity; rewrite Rplus_0_r, (IH' v); f_equal; lia.
    + destruct (is_specular (fst l)) eqn:S; [| discriminate IM].
      rewrite SP by reflexivity; apply IH'.
Qed.

(* C47.  The density reported with a sampled non-specular direction is the one pdf()
   reports, when a layer of the other side has density zero. *)
Theorem multi_pdf_consistent : forall m r0 r1 r2 wo h sp ms out wi,
  0 <= r1 <= 1 -> 0 <= r2 <= 1 -> orthonormal sp -> unit_samples m ->
  (forall l, In l m -> known_type (fst l)) ->
  (forall l, In l m -> matches (fst l) (side h wo wi) = false ->
     b_pdf (fst l) (to_shading sp wo) (to_shading sp wi) = 0) ->
  multi_sample m r0 r1 r2 wo h sp ms = Ok out -> ms_wi out = Some wi -> ms_spec out = Some false ->
  ms_pdf out = multi_pdf m wo sp wi ms.
Proof.
  intros m r0 r1 r2 wo h sp ms out wi B1 B2 O U K Z E EW ES.
  destruct (sample_inv _ _ _ _ _ _ _ _ _ _ B1 B2 O U E EW ES) as (tex & wis & ET & _ & _ & _ & S & EQ).
  rewrite S in Z; unfold multi_pdf; rewrite S.
  assert (F : side h wo wi = flag_brdf \/ side h wo wi = flag_btdf) by (unfold side; destruct (Rlt_dec _ _); auto).
  pose proof (fold_pdf ms (side h wo wi) (to_shading sp wo) wis tex h m 0 0%nat 0 K F Z) as FP.
  rewrite FP; cbn [plus]; destruct (fold_left _ m (0, 0)) as [v p] in *; cbn [snd].
  injection EQ as _ EP; exact EP.
Qed.
Print Assumptions multi_pdf_consistent.

(* the hypothesis holds for diffuse layers and hits whose normal is that of the frame *)
Lemma lambertian_side : forall wo wi h sp, orthonormal sp -> h_normal h = sh_n sp -> unit wo -> unit wi ->
  matches lambertian (side h wo wi) = false ->
  b_pdf lambertian (to_shading sp wo) (to_shading sp wi) = 0.
Proof.
  intros wo wi h sp O HN U W; unfold side, lambertian; cbn [b_pdf]; unfold default_pdf.
  rewrite HN, <- !(unit_height sp) by assumption.
  rewrite (Rmult_comm (rz (to_shading sp wi))).
  destruct (Rlt_dec 0 (rz (to_shading sp wo) * rz (to_shading sp wi))); [discriminate | reflexivity].
Qed.
Example multi_pdf_ex : forall t0 t1 l, In l (coats t0 t1) -> known_type (fst l) /\
  (forall wo wi h sp, orthonormal sp -> h_normal h = sh_n sp -> unit wo -> unit wi ->
   matches (fst l) (side h wo wi) = false -> b_pdf (fst l) (to_shading sp wo) (to_shading sp wi) = 0).
Proof. intros t0 t1 l [<- | [<- | []]]; (split; [left; reflexivity | exact lambertian_side]). Qed.

(* ----- the number of layers ----- *)

(* C71.  A sixth layer is written past the arrays; up to five are kept in order. *)
Theorem sixth_layer_refuted : forall dflt m b t, length m = 5%nat -> inherit_bdf dflt m b t = UB.
Proof. intros dflt m b t L; unfold inherit_bdf; rewrite L; reflexivity. Qed.
Print Assumptions sixth_layer_refuted.

Fixpoint inherit_all (dflt : texture) (m : multi) (l : list (bdf * option texture)) : res multi :=
  match l with
  | [] => Ok m
  | (b, t) :: r => let! m1 := inherit_bdf dflt m b t in inherit_all dflt m1 r
  end.

Theorem layers_kept : forall dflt l, (length l <= 5)%nat ->
  exists m, inherit_all dflt [] l = Ok m /\ map fst m = map fst l /\
    map snd m = map (fun x => match snd x with Some t => t | None => dflt end) l.
Proof.
  intros dflt l.
  assert (G : forall m0, (length m0 + length l <= 5)%nat ->
    exists m, inherit_all dflt m0 l = Ok (m0 ++ m) /\ map fst m = map fst l /\
      map snd m = map (fun x => match snd x with Some t => t | None => dflt end) l).
  { induction l as [|[b t] l IH]; intros m0 L.
    - exists []; rewrite app_nil_r; auto.
    - cbn [length] in L; cbn [inherit_all]; unfold inherit_bdf.
      destruct (Nat.ltb_spec (length m0) max_bdf) as [_ | G]; [| unfold max_bdf in G; lia].
      cbn [bind]; destruct (IH (m0 ++ [(b, match t with Some x => x | None => dflt end)])) as (m & E & F & S).
      { rewrite app_length; cbn; lia. }
      exists ((b, match t with Some x => x | None => dflt end) :: m).
      rewrite E, <- app_assoc; cbn; rewrite F, S; auto. }
  intro L; destruct (G [] L) as (m & E & R); exists m; auto.
Qed.
Print Assumptions layers_kept.
Example layers_ex : exists m, inherit_all (fun _ => 1) [] [(lambertian, None); (conductor_bdf 1 1, Some (fun _ => 0))] = Ok m
  /\ length m = 2%nat.
Proof. eexists; split; reflexivity. Qed.

(* ----- single layers ----- *)

(* the sampling of a layer answers what value and pdf answer for the same direction *)
Definition consistent (b : bdf) : Prop :=
  forall wo r1 r2 w, 0 <= r1 <= 1 -> 0 <= r2 <= 1 -> unit wo ->
  sm_wi (b_sample b wo r1 r2) = Some w -> 0 < rz wo * rz w ->
  unit w /\ sm_value (b_sample b wo r1 r2) = b_value b wo w /\ sm_pdf (b_sample b wo r1 r2) = b_pdf b wo w.

(* C72.  A single non-specular BRDF reports with a sampled direction on the side of wo
   the value and the density that value() and pdf() report. *)
Theorem single_consistent : forall dflt b t r1 r2 wo h sp ms,
  is_brdf b = true -> known_type b -> is_specular b = false -> consistent b ->
  0 <= r1 <= 1 -> 0 <= r2 <= 1 -> orthonormal sp -> h_normal h = sh_n sp -> unit wo ->
  forall w, sm_wi (b_sample b (to_shading sp wo) r1 r2) = Some w -> 0 < rdot wo (sh_n sp) * rz w ->
  let s := single_new dflt b t in
  let out := single_sample s r1 r2 wo h sp ms in
  exists wi, ms_wi out = Some wi /\ unit wi /\ ms_spec out = Some false /\
    ms_value out = single_value s wo h wi sp ms /\ ms_pdf out = single_pdf s wo sp wi ms.
Proof.
  intros dflt b t r1 r2 wo h sp ms BR KT NS CO B1 B2 O HN U w EW P s out.
  destruct (shading_inverse sp wo O U) as (_ & _ & _ & UO).
  destruct (CO _ _ _ _ B1 B2 UO EW) as (UW & EV & EP); [rewrite (unit_height sp wo O U); exact P |].
  destruct (shading_inverse sp w O UW) as (S1 & _ & S2 & _).
  unfold out, single_sample, s, single_new; cbn [fst snd]; rewrite BR, NS; cbn [andb].
  exists (to_world sp w); cbn [ms_wi ms_spec ms_value ms_pdf]; rewrite EW, (normalize_unit w UW).
  split; [reflexivity | split; [exact S2 | split; [reflexivity | split]]].
  - unfold single_value; rewrite HN, <- (unit_height sp _ O S2), S1; cbn [fst snd].
    destruct (Rlt_dec 0 (rz w * rdot wo (sh_n sp))) as [_ | N]; [| exfalso; lra].
    assert (M : matches b (N.lor (if ms then flag_spec else 0) flag_brdf) = true).
    { unfold is_brdf, is_specular, matches in *.
      destruct KT as [E | [E | [E | E]]]; rewrite E in *; try discriminate; destruct ms; reflexivity. }
    rewrite M, EV; reflexivity.
  - unfold single_pdf; cbn [fst]; rewrite NS, andb_false_r, S1; exact EP.
Qed.
Print Assumptions single_consistent.

(* C175.  A single layer answers as the layer itself does in the shading frame, times the
   texture; a specular one answers nothing unless specular layers are asked for. *)
Theorem single_flags : forall dflt b t r1 r2 wo h wi sp ms, is_brdf b = true -> known_type b ->
  let s := single_new dflt b t in
  let asked := orb ms (negb (is_specular b)) in
  let colour := match t with Some x => x h | None => dflt h end in
  single_pdf s wo sp wi ms = (if asked then b_pdf b (to_shading sp wo) (to_shading sp wi) else 0) /\
  (0 < rdot wi (h_normal h) * rdot wo (h_normal h) ->
   single_value s wo h wi sp ms = (if asked then b_value b (to_shading sp wo) (to_shading sp wi) * colour else 0)) /\
  (rdot wi (h_normal h) * rdot wo (h_normal h) <= 0 -> single_value s wo h wi sp ms = 0) /\
  ms_spec (single_sample s r1 r2 wo h sp ms) = Some (is_specular b) /\
  ms_pdf (single_sample s r1 r2 wo h sp ms) = (if asked then sm_pdf (b_sample b (to_shading sp wo) r1 r2) else 0) /\
  ms_value (single_sample s r1 r2 wo h sp ms) = (if asked then sm_value (b_sample b (to_shading sp wo) r1 r2) * colour else 0) /\
  (asked = false -> ms_wi (single_sample s r1 r2 wo h sp ms) = None).
Proof.
  intros dflt b t r1 r2 wo h wi sp ms BR KT s asked colour.
  unfold single_pdf, single_value, single_sample, s, single_new, colour, asked; cbn [fst snd]; rewrite BR.
  assert (MT : matches b (N.lor (if ms then flag_spec else 0) flag_brdf) = orb ms (negb (is_specular b))).
  { unfold known_type in KT. unfold is_brdf in BR. unfold matches, is_specular.
    destruct KT as [K | [K | [K | K]]]; rewrite K in *; destruct ms; try reflexivity; discriminate BR. }
  rewrite MT.
  destruct (is_specular b), ms; cbn [andb orb negb ms_spec ms_pdf ms_value ms_wi]; repeat apply conj; auto;
    try (intro H; destruct (Rlt_dec 0 _) as [L | L]; [| contradiction]); try (exfalso; lra);
    try (destruct t; reflexivity); try discriminate;
    try (intro H; destruct (Rlt_dec 0 _) as [L | L]; [exfalso; lra | reflexivity]).
Qed.
Print Assumptions single_flags.
Example single_flags_ex : is_brdf (conductor_bdf 1 1) = true /\ known_type (conductor_bdf 1 1) /\ is_specular (conductor_bdf 1 1) = true.
Proof. split; [reflexivity | split; [| reflexivity]]. unfold known_type. auto. Qed.

(* ----- the default sampling ----- *)

(* C73.  The default sampling gives a unit direction on the side of wo, with the density
   pdf() gives, for every pair of random numbers but r1 = 1 (the horizon). *)
Theorem default_sampling : forall value wo r0 r1, 0 <= r1 < 1 -> rz wo <> 0 ->
  exists wi, sm_wi (default_sample value wo r0 r1) = Some wi /\ unit wi /\ 0 < rz wo * rz wi /\
    sm_value (default_sample value wo r0 r1) = value wo wi /\
    sm_pdf (default_sample value wo r0 r1) = default_pdf wo wi /\ 0 < default_pdf wo wi.
Proof.
  intros value wo r0 r1 B NZ; exists (cosine_direction wo r0 r1).
  destruct (cosine_parts wo r0 r1) as (U & ZZ & AZ & ZP & ZN); [lra |].
  assert (SP : 0 < sqrt (1 - r1)) by (apply sqrt_lt_R0; lra).
  assert (SD : 0 < rz wo * rz (cosine_direction wo r0 r1)).
  { destruct (Rlt_dec (rz wo) 0) as [L | L].
    - rewrite (ZN L); replace (rz wo * - sqrt (1 - r1)) with (- rz wo * sqrt (1 - r1)) by ring.
      apply Rmult_lt_0_compat; lra.
    - rewrite ZP by lra; apply Rmult_lt_0_compat; lra. }
  split; [reflexivity | split; [exact U | split; [exact SD | split; [reflexivity |]]]].
  unfold default_pdf; destruct (Rlt_dec 0 _) as [_ | N]; [| exfalso; exact (N SD)].
  split; [reflexivity |]; rewrite AZ; apply Rdiv_lt_0_compat; [exact SP | apply PI_RGT_0].
Qed.
Print Assumptions default_sampling.
Example default_sampling_ex : 0 <= / 2 < 1 /\ rz (RV 0 0 (-1)) <> 0.
Proof. cbn; lra. Qed.

(* the diffuse layer is a consistent one *)
Theorem lambertian_consistent : consistent lambertian /\ known_type lambertian /\
  is_brdf lambertian = true /\ is_specular lambertian = false.
Proof.
  split; [| split; [left; reflexivity | split; reflexivity]].
  intros wo r1 r2 w B1 B2 U E P; split; [exact (lambertian_unit wo r1 r2 w B2 E) |].
  cbn in E; injection E as <-; split; [reflexivity |].
  cbn [b_sample b_pdf lambertian default_sample sm_pdf]; unfold default_pdf.
  destruct (Rlt_dec 0 _) as [_ | N]; [reflexivity | exfalso; exact (N P)].
Qed.
Print Assumptions lambertian_consistent.
