(* C299-C303: the density of sampled directions on rough surfaces, the value of rough
   transmission. *)
From Coq Require Import Reals Lra Lia.
From Verif Require Import RVecModel RVecProps SpecularModel SpecularProps MicroModel MicroSpec MicroProps MatModel
  PrimSpec SphUvProps AnisoModel AnisoSpec AnisoProps TransModel TransSpec.
Local Open Scope R_scope.

(* ----- areas under a bent field of vectors ----- *)

Lemma tangent_cross : forall h hu hv wo, unit h -> rdot h hu = 0 -> rdot h hv = 0 ->
  exists t, rcross hu hv = rscale t h /\
    rsub (rscale (rdot wo hu) hv) (rscale (rdot wo hv) hu) = rscale t (rcross h wo).
Proof.
  intros [a b c] [d e f] [x y z] [p q r] U A B; unfold unit, rdot in U; unfold rdot in A, B; cbn [rx ry rz] in *.
  set (t := a * (e * z - f * y) + b * (f * x - d * z) + c * (d * y - e * x)); exists t.
  assert (X : rcross (RV d e f) (RV x y z) = rscale t (RV a b c)).
  { unfold rcross, rscale; cbn [rx ry rz]; apply rv_eq; cbn [rx ry rz].
    - transitivity ((e * z - f * y) * (a * a + b * b + c * c)); [rewrite U; ring |].
      transitivity (t * a
        + (b * (z * (a * d + b * e + c * f) - f * (a * x + b * y + c * z)) - c * (y * (a * d + b * e + c * f) - e * (a * x + b * y + c * z))));
        [unfold t; ring | rewrite A, B; ring].
    - transitivity ((f * x - d * z) * (a * a + b * b + c * c)); [rewrite U; ring |].
      transitivity (t * b
        + (c * (x * (a * d + b * e + c * f) - d * (a * x + b * y + c * z)) - a * (z * (a * d + b * e + c * f) - f * (a * x + b * y + c * z))));
        [unfold t; ring | rewrite A, B; ring].
    - transitivity ((d * y - e * x) * (a * a + b * b + c * c)); [rewrite U; ring |].
      transitivity (t * c
        + (a * (y * (a * d + b * e + c * f) - e * (a * x + b * y + c * z)) - b * (x * (a * d + b * e + c * f) - d * (a * x + b * y + c * z))));
        [unfold t; ring | rewrite A, B; ring]. }
  split; [exact X |]; unfold rcross, rscale in X; cbn [rx ry rz] in X; injection X as X1 X2 X3.
  unfold rdot, rsub, rscale, rcross; cbn [rx ry rz]; apply rv_eq; cbn [rx ry rz].
  - transitivity ((f * x - d * z) * r - (d * y - e * x) * q); [ring | rewrite X2, X3; ring].
  - transitivity ((d * y - e * x) * p - (e * z - f * y) * r); [ring | rewrite X1, X3; ring].
  - transitivity ((e * z - f * y) * q - (f * x - d * z) * p); [ring | rewrite X1, X2; ring].
Qed.

(* the directions - e wo + G (wo . h) h *)
Lemma bent_cross : forall h hu hv wo k m, unit h -> rdot h hu = 0 -> rdot h hv = 0 -> unit wo ->
  rlength (rcross (radd (rscale k hu) (rscale (m * rdot wo hu) h)) (radd (rscale k hv) (rscale (m * rdot wo hv) h))) =
  Rabs k * rlength (rcross hu hv) * rlength (radd (rscale k h) (rscale m (rsub (rscale (rdot wo h) h) wo))).
Proof.
  intros h hu hv wo k m U A B W.
  destruct (tangent_cross h hu hv wo U A B) as (t & N & X).
  set (w := radd (rscale k h) (rscale m (rsub (rscale (rdot wo h) h) wo))).
  assert (E : rcross (radd (rscale k hu) (rscale (m * rdot wo hu) h)) (radd (rscale k hv) (rscale (m * rdot wo hv) h)) =
     rscale (k * t) w).
  { transitivity (radd (rscale (k * k) (rcross hu hv))
      (rscale (k * m) (rcross h (rsub (rscale (rdot wo hu) hv) (rscale (rdot wo hv) hu))))).
    { set (p := rdot wo hu); set (q := rdot wo hv); clearbody p q; apply rv_eq; cbn; ring. }
    rewrite N, X; unfold w.
    transitivity (radd (rscale (k * k * t) h) (rscale (k * m * t) (rsub (rscale (rdot wo h) h) (rscale (rdot h h) wo)))).
    { apply rv_eq; unfold rdot; cbn; ring. }
    rewrite U; set (c := rdot wo h); clearbody c; apply rv_eq; cbn; ring. }
  assert (L : forall s v, rlength (rscale s v) = Rabs s * rlength v).
  { intros s v; unfold rlength; replace (rdot (rscale s v) (rscale s v)) with (Rsqr s * rdot v v)
      by (unfold rdot, Rsqr; cbn; ring).
    rewrite sqrt_mult; [now rewrite sqrt_Rsqr_abs | apply Rle_0_sqr | apply rdot_pos]. }
  assert (H1 : rlength h = 1) by (unfold rlength; rewrite U; apply sqrt_1).
  rewrite E, N, !L, Rabs_mult, H1; ring.
Qed.

Lemma d_dot : forall (f : R -> rv) x du w, derivable_pt_lim (fun t => rx (f t)) x (rx du) ->
  derivable_pt_lim (fun t => ry (f t)) x (ry du) -> derivable_pt_lim (fun t => rz (f t)) x (rz du) ->
  derivable_pt_lim (fun t => rdot w (f t)) x (rdot w du).
Proof.
  intros f x du w A B C; unfold rdot.
  apply (derivable_pt_lim_plus (fun t => rx w * rx (f t) + ry w * ry (f t)) (fun t => rz w * rz (f t)));
    [apply (derivable_pt_lim_plus (fun t => rx w * rx (f t)) (fun t => ry w * ry (f t))) |]; apply d_mull; assumption.
Qed.

Lemma d_unit : forall (f : R -> rv) x a b du, a < x < b -> (forall z, a < z < b -> unit (f z)) ->
  derivable_pt_lim (fun t => rx (f t)) x (rx du) -> derivable_pt_lim (fun t => ry (f t)) x (ry du) ->
  derivable_pt_lim (fun t => rz (f t)) x (rz du) -> rdot (f x) du = 0.
Proof.
  intros f x a b du X U A B C.
  assert (D : derivable_pt_lim (fun t => rdot (f t) (f t)) x (2 * rdot (f x) du)).
  { pose proof (d_mul _ _ x _ _ A A) as A2; pose proof (d_mul _ _ x _ _ B B) as B2; pose proof (d_mul _ _ x _ _ C C) as C2.
    pose proof (derivable_pt_lim_plus _ _ x _ _ (derivable_pt_lim_plus _ _ x _ _ A2 B2) C2) as D.
    eapply dlim_eq; [exact D |]; unfold rdot; ring. }
  assert (E : derivable_pt_lim (fun t => rdot (f t) (f t)) x 0).
  { apply (derivable_pt_lim_locally_ext (fct_cte 1) _ x a b 0 X); [| apply derivable_pt_lim_const].
    intros z Z; unfold fct_cte; symmetry; apply U, Z. }
  pose proof (uniqueness_limite _ _ _ _ D E); lra.
Qed.

Definition bend (e : R) (G : R -> R) (wo h : rv) : rv := radd (rscale (- e) wo) (rscale (G (rdot wo h)) h).

Lemma d_bend : forall (f w : R -> rv) e G wo x a b du m, a < x < b ->
  (forall z, a < z < b -> w z = bend e G wo (f z)) ->
  derivable_pt_lim (fun t => rx (f t)) x (rx du) -> derivable_pt_lim (fun t => ry (f t)) x (ry du) ->
  derivable_pt_lim (fun t => rz (f t)) x (rz du) ->
  derivable_pt_lim G (rdot wo (f x)) m ->
  let dw := radd (rscale (G (rdot wo (f x))) du) (rscale (m * rdot wo du) (f x)) in
  derivable_pt_lim (fun t => rx (w t)) x (rx dw) /\ derivable_pt_lim (fun t => ry (w t)) x (ry dw) /\
  derivable_pt_lim (fun t => rz (w t)) x (rz dw).
Proof.
  intros f w e G wo x a b du m X W A B C D dw.
  pose proof (derivable_pt_lim_comp _ G x _ _ (d_dot f x du wo A B C) D) as E; unfold comp in E.
  assert (K : forall (g : R -> R) (dg c : R), derivable_pt_lim g x dg ->
    derivable_pt_lim (fun t => c + G (rdot wo (f t)) * g t) x (m * rdot wo du * g x + G (rdot wo (f x)) * dg)).
  { intros g dg c H; pose proof (d_mul _ _ x _ _ E H) as M.
    pose proof (derivable_pt_lim_plus (fct_cte c) _ x 0 _ (derivable_pt_lim_const c x) M) as P.
    eapply dlim_eq; [exact P | cbv beta; ring]. }
  split; [| split];
    (eapply derivable_pt_lim_locally_ext; [exact X | intros z Z; rewrite (W z Z); reflexivity |]).
  - eapply dlim_eq; [apply (K _ _ (- e * rx wo) A) | cbn; ring].
  - eapply dlim_eq; [apply (K _ _ (- e * ry wo) B) | cbn; ring].
  - eapply dlim_eq; [apply (K _ _ (- e * rz wo) C) | cbn; ring].
Qed.

Lemma bent_area : forall (f w : R -> R -> rv) e G wo u v k m a b a' b', unit wo ->
  a < u < b -> (forall z, a < z < b -> unit (f z v)) -> a' < v < b' -> (forall z, a' < z < b' -> unit (f u z)) ->
  (exists a b, a < u < b /\ forall z, a < z < b -> w z v = bend e G wo (f z v)) ->
  (exists a b, a < v < b /\ forall z, a < z < b -> w u z = bend e G wo (f u z)) ->
  area_element f u v k ->
  derivable_pt_lim G (rdot wo (f u v)) m ->
  let c := rdot wo (f u v) in
  area_element w u v (Rabs (G c) * k * rlength (radd (rscale (G c) (f u v)) (rscale m (rsub (rscale c (f u v)) wo)))).
Proof.
  intros f w e G wo u v k m a b a' b' W X U X' U' (p & q & Y & B) (p' & q' & Y' & B') (du & dv & D1 & D2 & D3 & D4 & D5 & D6 & L) D c.
  destruct (d_bend (fun z => f z v) (fun z => w z v) e G wo u p q du m Y B D1 D2 D3 D) as (E1 & E2 & E3).
  destruct (d_bend (fun z => f u z) (fun z => w u z) e G wo v p' q' dv m Y' B' D4 D5 D6 D) as (E4 & E5 & E6).
  eexists; eexists; split; [exact E1 | split; [exact E2 | split; [exact E3 | split; [exact E4 | split; [exact E5 | split; [exact E6 |]]]]]].
  cbv beta.
  rewrite bent_cross; [rewrite L; reflexivity | apply U, X | | | exact W].
  - apply (d_unit (fun z => f z v) u a b du X U D1 D2 D3).
  - apply (d_unit (fun z => f u z) v a' b' dv X' U' D4 D5 D6).
Qed.

Lemma aniso_drawn : forall ax ay wo r0 r1, 0 < ax -> 0 < ay -> 0 < r0 < 1 -> 0 < r1 < 1 -> r1 <> 1 / 2 ->
  drawn (aniso ax ay) wo r0 r1.
Proof.
  intros ax ay wo r0 r1 A B R R1 N; unfold drawn; cbn [d_wh aniso].
  split; [| split].
  - exists 0, 1; split; [exact R |]; intros z Z; apply (aniso_sampling ax ay wo z r1 A B Z R1 N).
  - destruct (Rlt_dec r1 (1 / 2)) as [L | L]; [exists 0, (1 / 2) | exists (1 / 2), 1]; (split; [lra |]);
      intros z Z; apply (aniso_sampling ax ay wo r0 z A B R); lra.
  - apply (aniso_sampling ax ay wo r0 r1 A B R R1 N).
Qed.

Definition ggx_cos (a2 r0 : R) : R := sqrt ((1 - r0) / (r0 * (a2 - 1) + 1)).

Lemma ggx_form : forall a2 wo, 0 < a2 -> exists s, s * s = 1 /\ forall r0 r1, 0 < r0 < 1 ->
  RV (s * (sqrt (1 - ggx_cos a2 r0 * ggx_cos a2 r0) * cos (2 * PI * r1)))
     (s * (sqrt (1 - ggx_cos a2 r0 * ggx_cos a2 r0) * sin (2 * PI * r1))) (s * ggx_cos a2 r0) = ggx_wh a2 wo r0 r1.
Proof.
  intros a2 wo A; exists (if Rlt_dec (rz wo) 0 then -1 else 1); split; [destruct (Rlt_dec (rz wo) 0); ring |].
  intros r0 r1 R; unfold ggx_wh, half_vector; pose proof (ggx_cos2 a2 r0 A R) as C.
  rewrite !Rmax_right by lra; fold (ggx_cos a2 r0); cbn [rz].
  assert (P : 0 < ggx_cos a2 r0) by (apply sqrt_lt_R0; lra).
  assert (Q : ggx_cos a2 r0 * ggx_cos a2 r0 = (1 - r0) / (r0 * (a2 - 1) + 1)) by (apply sqrt_sqrt; lra).
  rewrite Q; destruct (Rlt_dec (rz wo) 0) as [L | L]; destruct (Rlt_dec (rz wo * ggx_cos a2 r0) 0) as [M | M]; try (exfalso; nra);
    apply rv_eq; cbn; ring.
Qed.

Lemma d_ggx_cos : forall a2 r0, 0 < a2 -> 0 < r0 < 1 ->
  derivable_pt_lim (ggx_cos a2) r0 (- a2 / ((r0 * (a2 - 1) + 1) ^ 2 * (2 * ggx_cos a2 r0))).
Proof.
  intros a2 r0 A R; pose proof (ggx_den a2 r0 A ltac:(lra)) as D; pose proof (ggx_cos2 a2 r0 A R) as C.
  assert (N : derivable_pt_lim (fun r => 1 - r) r0 (-1)).
  { pose proof (derivable_pt_lim_minus (fct_cte 1) id r0 0 1 (derivable_pt_lim_const 1 r0) (derivable_pt_lim_id r0)) as H.
    eapply dlim_eq; [exact H | ring]. }
  assert (M : derivable_pt_lim (fun r => r * (a2 - 1) + 1) r0 (a2 - 1)).
  { apply d_plus_c; eapply dlim_eq; [apply (d_mulr (fun r => r) r0 1), derivable_pt_lim_id | ring]. }
  pose proof (derivable_pt_lim_div _ _ r0 _ _ N M ltac:(lra)) as Q.
  pose proof (derivable_pt_lim_comp _ sqrt r0 _ _ Q (derivable_pt_lim_sqrt ((1 - r0) / (r0 * (a2 - 1) + 1)) ltac:(lra))) as E.
  eapply dlim_eq; [exact E |]; unfold div_fct; fold (ggx_cos a2 r0).
  assert (P : 0 < ggx_cos a2 r0) by (apply sqrt_lt_R0; lra).
  unfold Rsqr; field; lra.
Qed.

Lemma ggx_drawn : forall a2 wo r0 r1, 0 < a2 -> 0 < r0 < 1 -> drawn (ggx a2) wo r0 r1.
Proof.
  intros a2 wo r0 r1 A R; unfold drawn; cbn [d_wh ggx]; pose proof PI_RGT_0 as PP.
  assert (UU : forall u v, 0 < u < 1 -> unit (ggx_wh a2 wo u v)).
  { intros u v X; apply (proj1 (ggx_sampling a2 wo v A) u X). }
  split; [exists 0, 1; split; [exact R | intros z Z; apply UU, Z] |].
  split; [exists (r1 - 1), (r1 + 1); split; [lra | intros z _; apply UU, R] |].
  destruct (ggx_form a2 wo A) as (s & S & F).
  pose proof (ggx_den a2 r0 A ltac:(lra)) as D; pose proof (ggx_cos2 a2 r0 A R) as C.
  assert (P : 0 < ggx_cos a2 r0) by (apply sqrt_lt_R0; lra).
  assert (Q : ggx_cos a2 r0 * ggx_cos a2 r0 = (1 - r0) / (r0 * (a2 - 1) + 1)) by (apply sqrt_sqrt; lra).
  pose proof (polar_area s (fun u _ => ggx_cos a2 u) (fun v => 2 * PI * v) r0 r1 _ 0 (2 * PI) S ltac:(cbv beta; rewrite Q; lra)
    (d_ggx_cos a2 r0 A R) (derivable_pt_lim_const (ggx_cos a2 r0) r1)
    ltac:(eapply dlim_eq; [apply (d_mull (fun v => v) r1 1), derivable_pt_lim_id | ring])) as AE.
  cbv beta in AE; set (k := Rabs _) in AE.
  assert (K : k = PI * a2 / ((r0 * (a2 - 1) + 1) ^ 2 * ggx_cos a2 r0)).
  { unfold k; rewrite Rabs_left1; [field; lra |].
    assert (0 < (r0 * (a2 - 1) + 1) ^ 2) by (apply pow_lt; lra).
    assert (0 < a2 / ((r0 * (a2 - 1) + 1) ^ 2 * (2 * ggx_cos a2 r0))) by (apply Rdiv_lt_0_compat; [exact A | nra]).
    unfold Rdiv in *; nra. }
  exists k; split; [| split].
  - rewrite K; apply Rdiv_lt_0_compat; [nra |]; apply Rmult_lt_0_compat; [apply pow_lt; lra | exact P].
  - destruct AE as (du & dv & D1 & D2 & D3 & D4 & D5 & D6 & D7); exists du, dv; cbn [rx ry rz] in *.
    split; [apply (derivable_pt_lim_locally_ext _ _ r0 0 1 _ R (fun z Z => f_equal rx (F z r1 Z)) D1) |].
    split; [apply (derivable_pt_lim_locally_ext _ _ r0 0 1 _ R (fun z Z => f_equal ry (F z r1 Z)) D2) |].
    split; [apply (derivable_pt_lim_locally_ext _ _ r0 0 1 _ R (fun z Z => f_equal rz (F z r1 Z)) D3) |].
    split; [apply (derivable_pt_lim_ext _ _ _ _ (fun z => f_equal rx (F r0 z R)) D4) |].
    split; [apply (derivable_pt_lim_ext _ _ _ _ (fun z => f_equal ry (F r0 z R)) D5) |].
    split; [apply (derivable_pt_lim_ext _ _ _ _ (fun z => f_equal rz (F r0 z R)) D6) | exact D7].
  - cbn [d_pdf ggx]; unfold dist_pdf, ggx_D; rewrite <- (F r0 r1 R); cbn [rz].
    destruct (Req_EM_T (s * ggx_cos a2 r0) 0) as [X | _].
    { exfalso; assert (s * s * (ggx_cos a2 r0 * ggx_cos a2 r0) = 0) by (transitivity ((s * ggx_cos a2 r0) * (s * ggx_cos a2 r0)); [ring | rewrite X; ring]).
      rewrite S in H; nra. }
    replace (s * ggx_cos a2 r0 * (s * ggx_cos a2 r0)) with (s * s * (ggx_cos a2 r0 * ggx_cos a2 r0)) by ring.
    rewrite S, Rmult_1_l, Q, Rmax_right by lra.
    rewrite Rabs_mult, (Rabs_pos_eq (ggx_cos a2 r0)) by lra.
    assert (SA : Rabs s = 1) by (rewrite <- sqrt_Rsqr_abs; unfold Rsqr; rewrite S; apply sqrt_1).
    rewrite SA, K; field; repeat split; lra.
Qed.

(* ----- reflection ----- *)

(* C299: the density reported for a sampled rough reflection is the density of the direction *)
Theorem rough_reflection_density : forall d f wo r0 r1,
  (exists a2, 0 < a2 /\ d = ggx a2) \/ (exists ax ay, 0 < ax /\ 0 < ay /\ d = aniso ax ay /\ r1 <> 1 / 2) ->
  0 < r0 < 1 -> 0 < r1 < 1 -> unit wo -> rz wo <> 0 ->
  let s := fun u v => micro_sample d f wo u v in
  0 < sm_pdf (s r0 r1) ->
  exists wi k, sm_wi (s r0 r1) = Some wi /\ unit wi /\ 0 < k /\
    area_element (fun u v => direction (sm_wi (s u v))) r0 r1 k /\ sm_pdf (s r0 r1) * k = 1.
Proof.
  intros d f wo r0 r1 DD R R1 U NZ s P.
  assert (DR : drawn d wo r0 r1).
  { destruct DD as [(a2 & A & ->) | (ax & ay & A & B & -> & N)]; [now apply ggx_drawn | now apply aniso_drawn]. }
  destruct DR as ((a & b & X & Ua) & (a' & b' & X' & Ub) & kh & KP & AE & PK).
  set (h := d_wh d wo r0 r1) in *; assert (H : unit h) by apply Ua, X.
  assert (W : forall u v, unit (d_wh d wo u v) ->
     direction (sm_wi (s u v)) = bend 1 (fun c => 2 * c) wo (d_wh d wo u v) /\ unit (direction (sm_wi (s u v))) /\
     sm_wi (s u v) = Some (direction (sm_wi (s u v)))).
  { intros u v Hu; destruct (reflect_unit wo (d_wh d wo u v) U Hu) as [WU WE].
    unfold s, micro_sample; rewrite (normalize_unit _ Hu), (normalize_unit _ WU).
    assert (Z : direction (Some (rneg (rreflect wo (d_wh d wo u v)))) = bend 1 (fun c => 2 * c) wo (d_wh d wo u v)).
    { cbn [direction]; unfold bend, rreflect; apply rv_eq; cbn; ring. }
    destruct (Rlt_dec _ 0); cbn [sm_wi]; (split; [exact Z | split; [exact WU | reflexivity]]). }
  destruct (W r0 r1 H) as (_ & WU & WS); set (wi := direction (sm_wi (s r0 r1))) in *.
  assert (PE : sm_pdf (s r0 r1) = d_pdf d wo h / (4 * rdot wo h)).
  { unfold s, micro_sample in *; fold h in P |- *; rewrite (normalize_unit h H) in *; destruct (Rlt_dec _ 0); cbn [sm_pdf] in *; [exfalso; lra | reflexivity]. }
  assert (PP : 0 < d_pdf d wo h) by (apply (Rmult_lt_reg_r kh); [exact KP | rewrite PK; lra]).
  assert (C : 0 < rdot wo h).
  { destruct (Rlt_dec 0 (rdot wo h)) as [L | L]; [exact L | exfalso]; rewrite PE in P.
    destruct (Req_EM_T (rdot wo h) 0) as [Z | Z].
    - rewrite Z, Rmult_0_r in P; unfold Rdiv in P; rewrite Rinv_0 in P; lra.
    - assert (/ (4 * rdot wo h) < 0) by (apply Rinv_lt_0_compat; lra); unfold Rdiv in P; nra. }
  pose proof (bent_area (d_wh d wo) (fun u v => direction (sm_wi (s u v))) 1 (fun c => 2 * c) wo r0 r1 kh 2 a b a' b' U X Ua X' Ub
    (ex_intro _ a (ex_intro _ b (conj X (fun z Z => proj1 (W z r1 (Ua z Z))))))
    (ex_intro _ a' (ex_intro _ b' (conj X' (fun z Z => proj1 (W r0 z (Ub z Z))))))
    AE ltac:(eapply dlim_eq; [apply (d_mull (fun v => v) _ 1), derivable_pt_lim_id | ring])) as BA.
  cbv zeta beta in BA; fold h in BA; set (c := rdot wo h) in *.
  assert (L : rlength (radd (rscale (2 * c) h) (rscale 2 (rsub (rscale c h) wo))) = 2).
  { unfold rlength; replace (rdot _ _) with (4 * (4 * (c * c) * rdot h h - 4 * c * rdot wo h + rdot wo wo))
      by (unfold rdot; cbn; ring).
    rewrite H, U; fold c; replace (4 * (4 * (c * c) * 1 - 4 * c * c + 1)) with (2 * 2) by ring; apply sqrt_square; lra. }
  rewrite L, Rabs_pos_eq in BA by lra.
  exists wi, (2 * c * kh * 2); split; [exact WS |]; split; [exact WU |].
  split; [nra |]; split; [exact BA |]; rewrite PE.
  transitivity (d_pdf d wo h * kh); [field; lra | exact PK].
Qed.
Print Assumptions rough_reflection_density.

Lemma ggx_slope : ggx_wh 1 (RV 0 0 1) (9 / 25) (1 / 4) = RV 0 (3 / 5) (4 / 5).
Proof.
  unfold ggx_wh, half_vector; replace ((1 - 9 / 25) / (9 / 25 * (1 - 1) + 1)) with (16 / 25) by field.
  rewrite !Rmax_right by lra; replace (1 - 16 / 25) with (3 / 5 * (3 / 5)) by field; replace (16 / 25) with (4 / 5 * (4 / 5)) by field.
  rewrite !sqrt_square by lra; cbn [rz]; destruct (Rlt_dec (1 * (4 / 5)) 0) as [X | _]; [exfalso; lra |].
  replace (2 * PI * (1 / 4)) with (PI / 2) by field; rewrite cos_PI2, sin_PI2; f_equal; field.
Qed.

Example rough_reflection_density_ex : 0 < sm_pdf (micro_sample (ggx 1) (fun _ => 1) (RV 0 0 1) (9 / 25) (1 / 4)).
Proof.
  unfold micro_sample; cbn [d_wh ggx]; rewrite ggx_slope.
  assert (H : unit (RV 0 (3 / 5) (4 / 5))) by (unfold unit, rdot; cbn; field).
  assert (U : unit (RV 0 0 1)) by (unfold unit, rdot; cbn; field).
  rewrite (normalize_unit _ H), (normalize_unit _ (proj1 (reflect_unit _ _ U H))).
  destruct (Rlt_dec _ 0) as [X | _]; [exfalso; unfold rreflect, rdot in X; cbn in X; lra |]; cbn [sm_pdf d_pdf ggx].
  unfold dist_pdf, ggx_D, rdot; cbn [rx ry rz].
  destruct (Req_EM_T (4 / 5) 0) as [X | _]; [exfalso; lra |].
  rewrite Rmax_right, (Rabs_pos_eq (4 / 5)) by lra; pose proof PI_RGT_0 as P.
  match goal with |- 0 < ?e => replace e with (/ PI / 4) by (field; lra) end.
  apply Rdiv_lt_0_compat; [apply Rinv_0_lt_compat, P | lra].
Qed.

(* ----- transmission ----- *)

Lemma near_pos : forall g x l, derivable_pt_lim g x l -> 0 < g x ->
  exists a b, a < x < b /\ forall z, a < z < b -> 0 < g z.
Proof.
  intros g x l D P; pose proof (derivable_continuous_pt g x (exist _ l D)) as C.
  destruct (C (g x) P) as (e & E & H); exists (x - e), (x + e); split; [lra |]; intros z Z.
  destruct (Req_EM_T x z) as [<- | N]; [exact P |].
  assert (T : R_dist (g z) (g x) < g x).
  { apply H; split; [split; [exact I | exact N] |]; simpl; unfold R_dist; apply Rabs_def1; lra. }
  unfold R_dist in T; apply Rabs_def2 in T; lra.
Qed.

Lemma cosine_one : forall a b, unit a -> unit b -> 0 <= 1 - rdot a b * rdot a b.
Proof.
  intros a b A B.
  assert (Q : rdot (rsub a (rscale (rdot a b) b)) (rsub a (rscale (rdot a b) b)) = 1 - rdot a b * rdot a b).
  { set (c := rdot a b); transitivity (rdot a a - 2 * c * rdot a b + c * c * rdot b b); [unfold rdot; cbn; ring |].
    rewrite A, B; fold c; ring. }
  pose proof (rdot_pos (rsub a (rscale (rdot a b) b))); lra.
Qed.

Definition bent (e c : R) : R := e * c - sqrt (1 - (1 - c * c) * e * e).

Lemma d_bent : forall e c, 0 < 1 - (1 - c * c) * e * e ->
  derivable_pt_lim (bent e) c (e - e * e * c / sqrt (1 - (1 - c * c) * e * e)).
Proof.
  intros e c P; unfold bent; pose proof (sqrt_lt_R0 _ P) as S.
  assert (D : derivable_pt_lim (fun c => 1 - (1 - c * c) * e * e) c (2 * c * e * e)).
  { pose proof (derivable_pt_lim_minus (fct_cte 1) _ c 0 _ (derivable_pt_lim_const 1 c)
      (d_mulr _ c _ e (d_mulr _ c _ e (dlim_one_minus_sq c)))) as H.
    eapply dlim_eq; [exact H | ring]. }
  pose proof (derivable_pt_lim_comp _ sqrt c _ _ D (derivable_pt_lim_sqrt _ P)) as Q.
  pose proof (derivable_pt_lim_minus _ _ c _ _ (d_mull (fun c => c) c 1 e (derivable_pt_lim_id c)) Q) as M.
  eapply dlim_eq; [exact M |]; field; lra.
Qed.

Lemma wrong_side : forall no ni c q, 0 < no -> 0 < ni -> 0 < c -> 0 < q -> 0 <= 1 - c * c ->
  ni * ni * (q * q) = ni * ni - no * no * (1 - c * c) ->
  (no < ni -> no * no * c / (ni * ni * q) < 1) /\ (ni < no -> 1 < no * no * c / (ni * ni * q)).
Proof.
  intros no ni c q NO NI C Q O K.
  assert (NIQ : 0 < ni * ni * q) by (apply Rmult_lt_0_compat; [apply Rmult_lt_0_compat |]; assumption).
  assert (E : no * no * c / (ni * ni * q) * (ni * ni * q) = no * no * c) by (field; lra).
  split; intro LT.
  - assert (N2 : no * no < ni * ni) by nra.
    assert (QC : c <= q).
    { assert (H : ni * ni * (c * c) <= ni * ni * (q * q)) by (rewrite K; nra).
      apply Rmult_le_reg_l in H; [| nra]; nra. }
    apply (Rmult_lt_reg_r (ni * ni * q)); [exact NIQ |]; rewrite E, Rmult_1_l; nra.
  - assert (N2 : ni * ni < no * no) by nra.
    assert (QC : q <= c).
    { assert (H : ni * ni * (q * q) <= ni * ni * (c * c)) by (rewrite K; nra).
      apply Rmult_le_reg_l in H; [| nra]; nra. }
    apply (Rmult_lt_reg_r (ni * ni * q)); [exact NIQ |]; rewrite E, Rmult_1_l; nra.
Qed.

(* C300: the density reported for a sampled rough refraction is not the density of the direction *)
Theorem rough_transmission_density_refuted : forall d eta_i eta_t wo r0 r1 wi p no ni,
  (exists a2, 0 < a2 /\ d = ggx a2) \/ (exists ax ay, 0 < ax /\ 0 < ay /\ d = aniso ax ay /\ r1 <> 1 / 2) ->
  0 < r0 < 1 -> 0 < r1 < 1 -> unit wo -> rz wo <> 0 ->
  0 < eta_i -> 0 < eta_t -> sides eta_i eta_t wo no ni -> no <> ni ->
  let h := d_wh d wo r0 r1 in
  0 < rdot wo h -> trans_sample d eta_i eta_t wo r0 r1 = (Some wi, p) -> rdot wi h <> 0 ->
  exists k, 0 < k /\ area_element (fun u v => direction (fst (trans_sample d eta_i eta_t wo u v))) r0 r1 k /\
    p * k = no * no * rdot wo h / (ni * ni * Rabs (rdot wi h)) /\
    (no < ni -> p * k < 1) /\ (ni < no -> 1 < p * k).
Proof.
  intros d ei et wo r0 r1 wi p no ni DD RR R1 U NZ EI ET SD NE h C E NQ.
  assert (DR : drawn d wo r0 r1).
  { destruct DD as [(a2 & A & ->) | (ax & ay & A & B & -> & N)]; [now apply ggx_drawn | now apply aniso_drawn]. }
  destruct DR as ((a & b & X & Ua) & (a' & b' & X' & Ub) & kh & KP & AE & PK); fold h in PK.
  assert (H : unit h) by apply Ua, X.
  assert (SE : (if Rlt_dec 0 (rz wo) then ei else et) = no /\ (if Rlt_dec 0 (rz wo) then et else ei) = ni /\ 0 < no /\ 0 < ni).
  { destruct SD as [S1 S2]; destruct (Rlt_dec 0 (rz wo)) as [L | L].
    - destruct (S1 L) as [-> ->]; auto.
    - destruct (S2 ltac:(lra)) as [-> ->]; auto. }
  destruct SE as (S1 & S2 & NO & NI).
  assert (ST : forall u v, trans_sample d ei et wo u v =
     match rrefract wo (rnormalize (d_wh d wo u v)) (no / ni) with
     | None => (None, 0)
     | Some wi => if is_zero wi then (None, 0) else
          let dotwoh := rdot wo (rnormalize (d_wh d wo u v)) in
          let den := ni * rdot wi (rnormalize (d_wh d wo u v)) + no * dotwoh in
          (Some (rnormalize wi), d_pdf d wo (rnormalize (d_wh d wo u v)) * (no * no * Rabs dotwoh / (den * den)))
     end).
  { intros u v; unfold trans_sample; rewrite S1, S2; destruct (Req_EM_T (rz wo) 0); [contradiction | reflexivity]. }
  set (e := no / ni) in *; assert (EP : 0 < e) by (apply Rdiv_lt_0_compat; assumption).
  set (g := fun c => 1 - (1 - c * c) * e * e).
  assert (W : forall u v, unit (d_wh d wo u v) -> 0 <= g (rdot wo (d_wh d wo u v)) ->
     exists w, rrefract wo (d_wh d wo u v) e = Some w /\ unit w /\ w = bend e (bent e) wo (d_wh d wo u v) /\
       direction (fst (trans_sample d ei et wo u v)) = w).
  { intros u v Hu G; rewrite ST, (normalize_unit _ Hu); set (hu := d_wh d wo u v) in *.
    pose proof (cosine_one wo hu U Hu) as CO.
    destruct (rrefract wo hu e) as [w |] eqn:RF.
    - exists w; split; [reflexivity |].
      destruct (refract_half wo hu no ni w NO NI U Hu RF) as (q & _ & WU & _); split; [exact WU |].
      assert (WE : w = bend e (bent e) wo hu).
      { unfold rrefract in RF; cbv zeta in RF; rewrite Rmax_right in RF by lra; destruct (Rlt_dec 1 _); [discriminate |].
        injection RF as <-; unfold bend, bent; rewrite (Rmult_comm (rdot wo hu) e); apply rv_eq; cbn; ring. }
      split; [exact WE |].
      destruct (is_zero w) eqn:IZ.
      + exfalso; assert (Z : w = RV 0 0 0).
        { unfold is_zero in IZ; destruct (Req_EM_T (rx w) 0); [| discriminate].
          destruct (Req_EM_T (ry w) 0); [| discriminate]; destruct (Req_EM_T (rz w) 0); [| discriminate].
          apply rv_eq; assumption. }
        rewrite Z in WU; unfold unit, rdot in WU; cbn in WU; lra.
      + cbn [fst direction]; apply normalize_unit, WU.
    - exfalso; unfold rrefract in RF; cbv zeta in RF; rewrite Rmax_right in RF by lra; destruct (Rlt_dec 1 _); [| discriminate].
      unfold g in G; lra. }
  set (c := rdot wo h) in *; pose proof (cosine_one wo h U H) as CO; fold c in CO.
  rewrite ST in E; fold h in E; rewrite (normalize_unit h H) in E.
  destruct (rrefract wo h e) as [w |] eqn:RF; [| discriminate].
  destruct (refract_half wo h no ni w NO NI U H RF) as (q & QP & WU & WD & K & _); fold c in K.
  destruct (is_zero w); [discriminate |]; cbv zeta in E; fold c in E; injection E as E1 E2.
  rewrite (normalize_unit w WU) in E1; subst w.
  rewrite WD in E2, NQ; assert (Q0 : 0 < q) by lra.
  assert (GQ : g c = q * q).
  { unfold g, e; apply (Rmult_eq_reg_l (ni * ni)); [| nra]; rewrite K; field; lra. }
  assert (SQ : sqrt (g c) = q) by (rewrite GQ; apply sqrt_square; lra).
  assert (GP : 0 < g c) by (rewrite GQ; apply Rmult_lt_0_compat; exact Q0).
  assert (DG : forall (f : R -> rv) x du, derivable_pt_lim (fun t => rx (f t)) x (rx du) ->
     derivable_pt_lim (fun t => ry (f t)) x (ry du) -> derivable_pt_lim (fun t => rz (f t)) x (rz du) ->
     derivable_pt_lim (fun t => g (rdot wo (f t))) x (2 * rdot wo (f x) * rdot wo du * e * e)).
  { intros f x du D1 D2 D3; pose proof (d_dot f x du wo D1 D2 D3) as D; pose proof (d_mul _ _ x _ _ D D) as M.
    pose proof (derivable_pt_lim_minus (fct_cte 1) _ x 0 _ (derivable_pt_lim_const 1 x) M) as M1.
    pose proof (derivable_pt_lim_minus (fct_cte 1) _ x 0 _ (derivable_pt_lim_const 1 x)
      (d_mulr _ x _ e (d_mulr _ x _ e M1))) as M2.
    eapply dlim_eq; [exact M2 | cbv beta; ring]. }
  assert (NB : forall x a b a1 b1, a < x < b -> a1 < x < b1 -> Rmax a a1 < x < Rmin b b1).
  { intros x p1 p2 p3 p4 H1 H2; split; [apply Rmax_lub_lt; lra | apply Rmin_glb_lt; lra]. }
  assert (IN : forall z a b a1 b1, Rmax a a1 < z < Rmin b b1 -> a < z < b /\ a1 < z < b1).
  { intros z p1 p2 p3 p4 H1; pose proof (Rmax_l p1 p3); pose proof (Rmax_r p1 p3); pose proof (Rmin_l p2 p4); pose proof (Rmin_r p2 p4); lra. }
  assert (BU : exists a b, a < r0 < b /\ forall z, a < z < b ->
     direction (fst (trans_sample d ei et wo z r1)) = bend e (bent e) wo (d_wh d wo z r1)).
  { destruct AE as (du & dv & D1 & D2 & D3 & _).
    destruct (near_pos _ r0 _ (DG (fun z => d_wh d wo z r1) r0 du D1 D2 D3) GP) as (a1 & b1 & Y & P1).
    exists (Rmax a a1), (Rmin b b1); split; [now apply NB |]; intros z Z; apply IN in Z; destruct Z as [Z1 Z2].
    destruct (W z r1 (Ua z Z1) ltac:(specialize (P1 z Z2); cbv beta in P1; lra)) as (w & _ & _ & -> & ->); reflexivity. }
  assert (BV : exists a b, a < r1 < b /\ forall z, a < z < b ->
     direction (fst (trans_sample d ei et wo r0 z)) = bend e (bent e) wo (d_wh d wo r0 z)).
  { destruct AE as (du & dv & _ & _ & _ & D1 & D2 & D3 & _).
    destruct (near_pos _ r1 _ (DG (fun z => d_wh d wo r0 z) r1 dv D1 D2 D3) GP) as (a1 & b1 & Y & P1).
    exists (Rmax a' a1), (Rmin b' b1); split; [now apply NB |]; intros z Z; apply IN in Z; destruct Z as [Z1 Z2].
    destruct (W r0 z (Ub z Z1) ltac:(specialize (P1 z Z2); cbv beta in P1; lra)) as (w & _ & _ & -> & ->); reflexivity. }
  pose proof (bent_area (d_wh d wo) (fun u v => direction (fst (trans_sample d ei et wo u v))) e (bent e) wo r0 r1 kh _ a b a' b' U X Ua X' Ub BU BV AE (d_bent e c GP)) as BA.
  cbv zeta in BA; fold h c in BA; fold (g c) in BA; rewrite SQ in BA.
  set (k := bent e c) in *; assert (KE : k = e * c - q) by (unfold k, bent; fold (g c); now rewrite SQ).
  assert (ME : e - e * e * c / q = - (k * e / q)) by (rewrite KE; field; lra).
  rewrite ME in BA.
  assert (L : rlength (radd (rscale k h) (rscale (- (k * e / q)) (rsub (rscale c h) wo))) = Rabs k / q).
  { assert (WE : wi = bend e (bent e) wo h) by (destruct (W r0 r1 H ltac:(fold h; fold c; lra)) as (w & RF' & _ & -> & _); fold h in RF' |- *; congruence).
    assert (V : radd (rscale k h) (rscale (- (k * e / q)) (rsub (rscale c h) wo)) = rscale (- (k / q)) wi).
    { rewrite WE; unfold bend; fold c; fold k; apply rv_eq; cbn; rewrite KE; field; lra. }
    rewrite V; unfold rlength; replace (rdot _ _) with (Rsqr (k / q) * rdot wi wi) by (unfold rdot, Rsqr; cbn; ring).
    rewrite WU, Rmult_1_r, sqrt_Rsqr_abs; unfold Rdiv; rewrite Rabs_mult, (Rabs_pos_eq (/ q)); [reflexivity |].
    apply Rlt_le, Rinv_0_lt_compat, Q0. }
  rewrite L in BA.
  assert (EN : ni * e = no) by (unfold e; field; lra).
  assert (SQ2 : (ni * q) * (ni * q) - (no * c) * (no * c) = (ni - no) * (ni + no)).
  { transitivity (ni * ni * (q * q) - no * no * (c * c)); [ring | rewrite K; ring]. }
  assert (DK : ni * - q + no * c = ni * k) by (rewrite KE, <- EN; ring).
  assert (KZ : k <> 0).
  { intro Z; assert (Y : ni * q = no * c) by (rewrite Z in DK; lra); rewrite Y in SQ2.
    assert (Y2 : (ni - no) * (ni + no) = 0) by lra; apply Rmult_integral in Y2; lra. }
  assert (AK : Rabs k * kh * (Rabs k / q) = k * k * kh / q).
  { assert (Rabs k * Rabs k = k * k) by (rewrite <- Rabs_mult; apply Rabs_pos_eq, sq_nonneg).
    transitivity (Rabs k * Rabs k * kh / q); [field; lra | rewrite H0; reflexivity]. }
  rewrite AK in BA.
  assert (KK : 0 < k * k) by (pose proof (Rsqr_pos_lt k KZ) as Y; exact Y).
  exists (k * k * kh / q); split; [apply Rdiv_lt_0_compat; [apply Rmult_lt_0_compat; assumption | exact Q0] |]; split; [exact BA |].
  assert (PE : p * (k * k * kh / q) = no * no * c / (ni * ni * q)).
  { rewrite <- E2, DK, (Rabs_pos_eq c) by lra.
    transitivity (d_pdf d wo h * kh * (no * no * c / (ni * ni * q))); [field; repeat split; lra | rewrite PK; ring]. }
  rewrite WD, Rabs_Ropp, (Rabs_pos_eq q) by lra; split; [exact PE |]; rewrite PE.
  apply wrong_side; assumption.
Qed.
Print Assumptions rough_transmission_density_refuted.
Example rough_transmission_density_ex : exists wi p,
  trans_sample (ggx 1) 25 39 (RV 0 0 1) (9 / 25) (1 / 4) = (Some wi, p) /\
  0 < rdot (RV 0 0 1) (d_wh (ggx 1) (RV 0 0 1) (9 / 25) (1 / 4)) /\
  rdot wi (d_wh (ggx 1) (RV 0 0 1) (9 / 25) (1 / 4)) = - (12 / 13) /\ rz wi < 0.
Proof.
  unfold trans_sample; cbn [d_wh ggx rz]; rewrite ggx_slope.
  assert (H : unit (RV 0 (3 / 5) (4 / 5))) by (unfold unit, rdot; cbn; field).
  destruct (Req_EM_T 1 0) as [X | _]; [exfalso; lra |]; destruct (Rlt_dec 0 1) as [_ | X]; [| exfalso; lra].
  rewrite (normalize_unit _ H); unfold rrefract; cbv zeta.
  replace (rdot (RV 0 0 1) (RV 0 (3 / 5) (4 / 5))) with (4 / 5) by (unfold rdot; cbn; field).
  rewrite Rmax_right by lra; replace ((1 - 4 / 5 * (4 / 5)) * (25 / 39) * (25 / 39)) with (25 / 169) by field.
  destruct (Rlt_dec 1 (25 / 169)) as [X | _]; [exfalso; lra |].
  replace (1 - 25 / 169) with (12 / 13 * (12 / 13)) by field; rewrite sqrt_square by lra.
  set (w := radd _ _).
  assert (W : w = RV 0 (- (16 / 65)) (- (63 / 65))) by (unfold w; apply rv_eq; cbn; field).
  rewrite W; unfold is_zero; cbn [rx ry rz].
  destruct (Req_EM_T 0 0) as [_ | X]; [| exfalso; lra]; destruct (Req_EM_T (- (16 / 65)) 0) as [X | _]; [exfalso; lra |].
  eexists; eexists; split; [reflexivity |]; rewrite normalize_unit by (unfold unit, rdot; cbn; field).
  split; [lra |]; split; [unfold rdot; cbn; field | cbn; lra].
Qed.

(* ----- the value of rough transmission ----- *)

Lemma fresnel_sides : forall ei et co ci, 0 < ei -> 0 < et -> 0 < co <= 1 -> 0 < ci <= 1 ->
  ei * ei * (1 - co * co) = et * et * (1 - ci * ci) -> dielectric_eval ei et co = dielectric_eval ei et (- ci).
Proof.
  intros ei et co ci EI ET CO CI S.
  assert (K : forall a b x y, 0 < a -> 0 < b -> 0 < x <= 1 -> 0 < y <= 1 -> a * a * (1 - x * x) = b * b * (1 - y * y) ->
    a / b * sqrt (Rmax 0 (1 - x * x)) = sqrt (1 - y * y)).
  { intros a b x y A B X Y E; assert (P : 0 <= 1 - x * x) by nra; assert (Q : 0 <= 1 - y * y) by nra.
    rewrite Rmax_right by lra.
    assert (L : sqrt (b * b * (1 - y * y)) = b * sqrt (1 - y * y)).
    { rewrite sqrt_mult by nra; rewrite sqrt_square by lra; reflexivity. }
    assert (M : sqrt (a * a * (1 - x * x)) = a * sqrt (1 - x * x)).
    { rewrite sqrt_mult by nra; rewrite sqrt_square by lra; reflexivity. }
    rewrite E, L in M; unfold Rdiv; transitivity (a * sqrt (1 - x * x) * / b); [ring | rewrite <- M; field; lra]. }
  assert (T : forall y, 0 < y <= 1 -> sqrt (1 - y * y) < 1 /\ sqrt (Rmax 0 (1 - sqrt (1 - y * y) * sqrt (1 - y * y))) = y).
  { intros y Y; assert (Q : 0 <= 1 - y * y) by nra; pose proof (sqrt_sqrt _ Q) as E; pose proof (sqrt_pos (1 - y * y)).
    split; [nra |]; rewrite E; replace (1 - (1 - y * y)) with (y * y) by ring; rewrite Rmax_right by nra; apply sqrt_square; lra. }
  unfold dielectric_eval; destruct (Rlt_dec co 0) as [X | _]; [lra |]; destruct (Rlt_dec (- ci) 0) as [_ | X]; [| lra].
  rewrite Ropp_involutive, (K ei et co ci), (K et ei ci co) by (assumption || lra).
  destruct (T ci CI) as [T1 ->]; destruct (T co CO) as [T2 ->].
  destruct (Rle_dec 1 (sqrt (1 - ci * ci))) as [X | _]; [lra |]; destruct (Rle_dec 1 (sqrt (1 - co * co))) as [X | _]; [lra |].
  unfold dielectric_terms.
  assert (0 < ei * co) by nra; assert (0 < et * ci) by nra; assert (0 < et * co) by nra; assert (0 < ei * ci) by nra.
  field; lra.
Qed.

(* the half vector of a rough transmission, facing upwards *)
Definition upwards (h : rv) : rv := if Rlt_dec (rz h) 0 then rneg h else h.
Definition bisector (no ni : R) (wo wi : rv) : rv := upwards (rnormalize (rsub (rscale no (rneg wo)) (rscale ni wi))).

Lemma value_form : forall d ei et wo wi no ni, sides ei et wo no ni -> rz wo * rz wi < 0 ->
  is_zero (rsub (rscale no (rneg wo)) (rscale ni wi)) = false ->
  let h := bisector no ni wo wi in
  let up := no * no * d_D d h * d_G d wo wi * rdot wo h * rdot wi h in
  trans_value d ei et wo wi =
    if Rle_dec (Rabs up) (/ 100000) then 0
    else (1 - dielectric_eval ei et (rdot wi h)) *
      Rabs (up / ((no * rdot wo h + ni * rdot wi h) * (no * rdot wo h + ni * rdot wi h) * (rz wo * rz wi))).
Proof.
  intros d ei et wo wi no ni [S1 S2] Z IZ h up; unfold trans_value.
  destruct (Rlt_dec 0 (rz wo * rz wi)) as [X | _]; [lra |].
  destruct (Req_EM_T (rz wo) 0) as [X | NO]; [rewrite X in Z; lra |].
  destruct (Req_EM_T (rz wi) 0) as [X | NI]; [rewrite X in Z; lra |].
  assert (E : (if Rlt_dec 0 (rz wo) then ei else et) = no /\ (if Rlt_dec 0 (rz wo) then et else ei) = ni).
  { destruct (Rlt_dec 0 (rz wo)) as [L | L]; [destruct (S1 L) as [-> ->] | destruct (S2 ltac:(lra)) as [-> ->]]; auto. }
  destruct E as [-> ->]; cbv zeta; rewrite IZ; fold (upwards (rnormalize (rsub (rscale no (rneg wo)) (rscale ni wi)))).
  fold (bisector no ni wo wi); fold h; fold up; unfold flt_equal; rewrite Rminus_0_r.
  destruct (Rle_dec (Rabs up) (/ 100000)); reflexivity.
Qed.

Lemma fresnel_range : forall a b c, 0 < a -> 0 < b -> 0 <= dielectric_eval a b c <= 1.
Proof.
  intros a b c A B; unfold dielectric_eval.
  set (e := if Rlt_dec c 0 then b else a); set (f := if Rlt_dec c 0 then a else b); set (x := if Rlt_dec c 0 then - c else c).
  assert (E : 0 < e) by (unfold e; destruct (Rlt_dec c 0); assumption).
  assert (F : 0 < f) by (unfold f; destruct (Rlt_dec c 0); assumption).
  assert (X : 0 <= x) by (unfold x; destruct (Rlt_dec c 0); lra).
  destruct (Rle_dec 1 _) as [_ | N]; [lra |]; set (s := e / f * sqrt (Rmax 0 (1 - x * x))) in *.
  assert (S : 0 <= s) by (apply Rmult_le_pos; [apply Rlt_le, Rdiv_lt_0_compat; assumption | apply sqrt_pos]).
  assert (T : 0 < sqrt (Rmax 0 (1 - s * s))) by (apply sqrt_lt_R0; rewrite Rmax_right; nra).
  apply terms_range; lra.
Qed.

(* C302: values of rough transmissions are never negative, and 0 on one side *)
Theorem rough_transmission_nonnegative : forall d eta_i eta_t wo wi, 0 < eta_i -> 0 < eta_t ->
  (forall h, 0 <= d_D d h) -> (forall a b, 0 <= d_G d a b) ->
  0 <= trans_value d eta_i eta_t wo wi /\ (0 <= rz wo * rz wi -> trans_value d eta_i eta_t wo wi = 0).
Proof.
  intros d ei et wo wi A B D G; split.
  - unfold trans_value; destruct (Rlt_dec 0 _); [lra |]; destruct (Req_EM_T _ 0); [lra |]; destruct (Req_EM_T _ 0); [lra |].
    cbv zeta; destruct (is_zero _); [lra |]; destruct (flt_equal _ 0); [lra |].
    apply Rmult_le_pos; [| apply Rabs_pos].
    match goal with |- 0 <= 1 - dielectric_eval ei et ?c => pose proof (fresnel_range ei et c A B) end; lra.
  - intro Z; unfold trans_value; destruct (Rlt_dec 0 (rz wo * rz wi)); [reflexivity |].
    destruct (Req_EM_T (rz wo) 0); [reflexivity |]; destruct (Req_EM_T (rz wi) 0) as [| N]; [reflexivity |].
    exfalso; assert (rz wo * rz wi <> 0) by (apply Rmult_integral_contrapositive_currified; assumption); lra.
Qed.
Print Assumptions rough_transmission_nonnegative.

Example rough_transmission_nonnegative_ex : forall wo wi, 0 <= trans_value (ggx (1 / 4)) 1 (3 / 2) wo wi.
Proof.
  intros wo wi; apply rough_transmission_nonnegative; try lra.
  - intro h; apply ggx_D_pos; lra.
  - intros a b; apply Rmult_le_pos; apply ggx_G_pos; lra.
Qed.

Lemma joined : forall no ni h wo wi, 0 < no -> 0 < ni -> no <> ni -> unit wo -> unit wi -> rz wo * rz wi < 0 ->
  0 < rz h -> joins no ni h wo wi ->
  let x := rsub (rscale no (rneg wo)) (rscale ni wi) in
  off_tolerance (rdot x x) ->
  is_zero x = false /\ bisector no ni wo wi = h /\ rdot wo h * rdot wi h < 0 /\ no * rdot wo h + ni * rdot wi h <> 0 /\
  no * no * (1 - rdot wo h * rdot wo h) = ni * ni * (1 - rdot wi h * rdot wi h).
Proof.
  intros no ni h wo wi NO NI NE U V Z HZ (H & FO & FI & k & J) x O.
  set (co := rdot wo h) in *; set (ci := rdot wi h) in *.
  assert (X : x = rscale (- k) h).
  { transitivity (rneg (radd (rscale no wo) (rscale ni wi))); [apply rv_eq; cbn; ring | rewrite J; apply rv_eq; cbn; ring]. }
  assert (E1 : no * co + ni * ci = k).
  { transitivity (rdot (radd (rscale no wo) (rscale ni wi)) h); [unfold co, ci, rdot; cbn; ring | rewrite J].
    transitivity (k * rdot h h); [unfold rdot; cbn; ring | rewrite H; ring]. }
  assert (E2 : no + ni * rdot wo wi = k * co).
  { transitivity (rdot wo (radd (rscale no wo) (rscale ni wi))); [| rewrite J; unfold co, rdot; cbn; ring].
    transitivity (no * rdot wo wo + ni * rdot wo wi); [rewrite U; ring | unfold rdot; cbn; ring]. }
  assert (E3 : no * rdot wo wi + ni = k * ci).
  { transitivity (rdot wi (radd (rscale no wo) (rscale ni wi))); [| rewrite J; unfold ci, rdot; cbn; ring].
    transitivity (no * rdot wo wi + ni * rdot wi wi); [rewrite V; ring | unfold rdot; cbn; ring]. }
  set (t := rdot wo wi) in *.
  assert (K : k <> 0).
  { intro K; rewrite K, Rmult_0_l in E2, E3; apply NE.
    assert (T : ni * (1 - t * t) = 0) by (replace (ni * (1 - t * t)) with ((no * t + ni) - t * (no + ni * t)) by ring; rewrite E2, E3; ring).
    apply Rmult_integral in T; destruct T as [T | T]; [lra |].
    assert (T2 : (1 - t) * (1 + t) = 0) by lra; apply Rmult_integral in T2; destruct T2 as [T2 | T2]; [assert (T3 : t = 1) by lra | assert (T3 : t = -1) by lra]; rewrite T3 in E2, E3; lra. }
  assert (XX : rdot x x = k * k).
  { rewrite X; transitivity (k * k * rdot h h); [unfold rdot; cbn; ring | rewrite H; ring]. }
  split; [| split; [| split; [| split; [lra |]]]].
  - destruct (is_zero x) eqn:IZ; [exfalso | reflexivity].
    assert (W : x = RV 0 0 0).
    { unfold is_zero in IZ; destruct (Req_EM_T (rx x) 0); [| discriminate].
      destruct (Req_EM_T (ry x) 0); [| discriminate]; destruct (Req_EM_T (rz x) 0); [| discriminate].
      apply rv_eq; assumption. }
    rewrite W in XX; unfold rdot in XX; cbn in XX; assert (Y : k * k = 0) by lra; apply Rmult_integral in Y; lra.
  - unfold bisector; fold x; rewrite X, normalize_scale; [| exact H | lra |].
    + unfold upwards; destruct (Rlt_dec 0 (- k)); [destruct (Rlt_dec (rz h) 0); [lra | reflexivity] |].
      cbn [rneg rz]; destruct (Rlt_dec (- rz h) 0); [destruct h; unfold rneg; cbn; f_equal; ring | lra].
    + replace (- k * - k) with (rdot x x) by (rewrite XX; ring); exact O.
  - assert (P : 0 < (rz wo * rz wi) * (co * ci)).
    { replace ((rz wo * rz wi) * (co * ci)) with ((rz wo * co) * (rz wi * ci)) by ring; apply Rmult_lt_0_compat; assumption. }
    assert (0 < - (rz wo * rz wi)) by lra.
    destruct (Rlt_dec (co * ci) 0) as [L | L]; [exact L | exfalso; clear - P H0 L; nra].
  - assert (N2 : no * no = k * k - 2 * k * ni * ci + ni * ni * 1).
    { rewrite <- V; transitivity (no * no * rdot wo wo); [rewrite U; ring |].
      transitivity (rdot (rsub (rscale k h) (rscale ni wi)) (rsub (rscale k h) (rscale ni wi))).
      - rewrite <- J; unfold rdot; cbn; ring.
      - transitivity (k * k * rdot h h - 2 * k * ni * rdot wi h + ni * ni * rdot wi wi); [unfold rdot; cbn; ring | rewrite H; fold ci; ring]. }
    assert (NC : no * co = k - ni * ci) by lra.
    transitivity (no * no - (no * co) * (no * co)); [ring |]; rewrite N2, NC; ring.
Qed.

(* C301: the value of the literature (Walter et al.) for directions joined by the normal h *)
Theorem rough_transmission_value : forall d eta_i eta_t wo wi no ni h, 0 < eta_i -> 0 < eta_t -> eta_i <> eta_t ->
  unit wo -> unit wi -> rz wo * rz wi < 0 -> sides eta_i eta_t wo no ni -> 0 < rz h -> joins no ni h wo wi ->
  let x := rsub (rscale no (rneg wo)) (rscale ni wi) in
  off_tolerance (rdot x x) ->
  / 100000 < Rabs (no * no * d_D d h * d_G d wo wi * rdot wo h * rdot wi h) ->
  let F := dielectric_eval eta_i eta_t (rdot wi h) in
  trans_value d eta_i eta_t wo wi =
    Rabs (rdot wo h * rdot wi h) / Rabs (rz wo * rz wi) *
    (no ^ 2 * (1 - F) * Rabs (d_D d h * d_G d wo wi) / (no * rdot wo h + ni * rdot wi h) ^ 2) /\
  F = dielectric_eval eta_i eta_t (rdot wo h).
Proof.
  intros d ei et wo wi no ni h EI ET NE U V Z SD HZ J x O UP F.
  assert (N : 0 < no /\ 0 < ni /\ no <> ni).
  { destruct SD as [S1 S2]; destruct (Rtotal_order (rz wo) 0) as [L | [L | L]]; [| rewrite L in Z; lra |];
      [destruct (S2 L) as [-> ->] | destruct (S1 L) as [-> ->]]; auto. }
  destruct N as (NO & NI & NN).
  destruct (joined no ni h wo wi NO NI NN U V Z HZ J O) as (IZ & B & OP & DZ & SN).
  split.
  - rewrite (value_form d ei et wo wi no ni SD Z IZ); cbv zeta; rewrite B; fold F.
    destruct (Rle_dec _ _) as [X | _]; [lra |].
    set (D := d_D d h) in *; set (G := d_G d wo wi) in *; set (co := rdot wo h) in *; set (ci := rdot wi h) in *.
    set (den := no * co + ni * ci) in *; set (zz := rz wo * rz wi) in *.
    assert (ZN : zz <> 0) by lra; assert (DP : 0 < den * den) by (pose proof (Rsqr_pos_lt den DZ) as Y; exact Y).
    replace (no * no * D * G * co * ci / (den * den * zz)) with (no * no / (den * den) * (D * G) * ((co * ci) / zz)) by (field; split; assumption).
    unfold Rdiv; rewrite !Rabs_mult, !Rabs_inv, (Rabs_pos_eq no), (Rabs_pos_eq (den * den)) by lra.
    field; split; [exact DZ | apply Rabs_no_R0, ZN].
  - unfold F; destruct J as (H & FO & FI & _).
    pose proof (cosine_one wo h U H) as C1; pose proof (cosine_one wi h V H) as C2.
    set (co := rdot wo h) in *; set (ci := rdot wi h) in *.
    assert (B1 : -1 <= co <= 1) by nra; assert (B2 : -1 <= ci <= 1) by nra.
    destruct SD as [S1 S2]; destruct (Rtotal_order (rz wo) 0) as [L | [L | L]]; [| rewrite L in Z; lra |].
    + destruct (S2 L) as [-> ->]; assert (0 < rz wi) by nra; assert (0 < ci) by nra; assert (co < 0) by nra.
      rewrite <- (Ropp_involutive co); apply fresnel_sides; try lra.
    + destruct (S1 L) as [-> ->]; assert (rz wi < 0) by nra; assert (ci < 0) by nra; assert (0 < co) by nra.
      symmetry; rewrite <- (Ropp_involutive ci); apply fresnel_sides; try lra.
Qed.
Print Assumptions rough_transmission_value.

Lemma joins_swap : forall no ni h wo wi, joins no ni h wo wi -> joins ni no h wi wo.
Proof.
  intros no ni h wo wi (H & A & B & k & J); split; [exact H |]; split; [exact B |]; split; [exact A |].
  exists k; rewrite <- J; apply rv_eq; cbn; ring.
Qed.

Lemma sides_swap : forall ei et wo wi no ni, rz wo * rz wi < 0 -> sides ei et wo no ni -> sides ei et wi ni no.
Proof.
  intros ei et wo wi no ni Z [S1 S2]; split; intro L;
    [destruct (S2 ltac:(nra)) as [-> ->] | destruct (S1 ltac:(nra)) as [-> ->]]; auto.
Qed.

Lemma rdot_sym : forall a b, rdot a b = rdot b a.
Proof. intros a b; unfold rdot; ring. Qed.

(* C301: and its reciprocity *)
Theorem rough_transmission_reciprocal : forall d eta_i eta_t wo wi no ni h, 0 < eta_i -> 0 < eta_t -> eta_i <> eta_t ->
  d_G d wo wi = d_G d wi wo ->
  unit wo -> unit wi -> rz wo * rz wi < 0 -> sides eta_i eta_t wo no ni -> 0 < rz h -> joins no ni h wo wi ->
  off_tolerance (rdot (radd (rscale no wo) (rscale ni wi)) (radd (rscale no wo) (rscale ni wi))) ->
  / 100000 < no * no * Rabs (d_D d h * d_G d wo wi * rdot wo h * rdot wi h) ->
  / 100000 < ni * ni * Rabs (d_D d h * d_G d wo wi * rdot wo h * rdot wi h) ->
  trans_value d eta_i eta_t wo wi / (no * no) = trans_value d eta_i eta_t wi wo / (ni * ni).
Proof.
  intros d ei et wo wi no ni h EI ET NE GS U V Z SD HZ J O C1 C2.
  assert (N : 0 < no /\ 0 < ni).
  { destruct SD as [S1 S2]; destruct (Rtotal_order (rz wo) 0) as [L | [L | L]]; [| rewrite L in Z; lra |];
      [destruct (S2 L) as [-> ->] | destruct (S1 L) as [-> ->]]; auto. }
  destruct N as [NO NI].
  assert (Z' : rz wi * rz wo < 0) by lra.
  assert (X1 : off_tolerance (rdot (rsub (rscale no (rneg wo)) (rscale ni wi)) (rsub (rscale no (rneg wo)) (rscale ni wi)))).
  { match goal with |- off_tolerance ?a => replace a with (rdot (radd (rscale no wo) (rscale ni wi)) (radd (rscale no wo) (rscale ni wi))) by (unfold rdot; cbn; ring) end; exact O. }
  assert (X2 : off_tolerance (rdot (rsub (rscale ni (rneg wi)) (rscale no wo)) (rsub (rscale ni (rneg wi)) (rscale no wo)))).
  { match goal with |- off_tolerance ?a => replace a with (rdot (radd (rscale no wo) (rscale ni wi)) (radd (rscale no wo) (rscale ni wi))) by (unfold rdot; cbn; ring) end; exact O. }
  destruct (rough_transmission_value d ei et wo wi no ni h EI ET NE U V Z SD HZ J X1) as [-> F].
  { replace (no * no * d_D d h * d_G d wo wi * rdot wo h * rdot wi h) with ((no * no) * (d_D d h * d_G d wo wi * rdot wo h * rdot wi h)) by ring.
    rewrite Rabs_mult, (Rabs_pos_eq (no * no)) by nra; exact C1. }
  destruct (rough_transmission_value d ei et wi wo ni no h EI ET NE V U Z' (sides_swap _ _ _ _ _ _ Z SD) HZ (joins_swap _ _ _ _ _ J) X2) as [-> F'].
  { rewrite <- GS; replace (ni * ni * d_D d h * d_G d wo wi * rdot wi h * rdot wo h) with ((ni * ni) * (d_D d h * d_G d wo wi * rdot wo h * rdot wi h)) by ring.
    rewrite Rabs_mult, (Rabs_pos_eq (ni * ni)) by nra; exact C2. }
  rewrite F, <- GS, (Rmult_comm (rdot wi h) (rdot wo h)), (Rmult_comm (rz wi) (rz wo)), (Rplus_comm (ni * rdot wi h)).
  destruct (joined no ni h wo wi NO NI) as (_ & _ & _ & DZ & _); try assumption.
  { intro E; apply NE; destruct SD as [S1 S2]; destruct (Rtotal_order (rz wo) 0) as [L | [L | L]]; [| rewrite L in Z; lra |];
      [destruct (S2 L); subst; auto | destruct (S1 L); subst; auto]. }
  field; repeat split; try lra; apply Rabs_no_R0; lra.
Qed.
Print Assumptions rough_transmission_reciprocal.

Example rough_transmission_value_ex :
  let wo := RV 0 0 1 in let wi := RV 0 (- (16 / 65)) (- (63 / 65)) in let h := RV 0 (3 / 5) (4 / 5) in
  unit wo /\ unit wi /\ rz wo * rz wi < 0 /\ sides 25 39 wo 25 39 /\ joins 25 39 h wo wi /\
  rdot (radd (rscale 25 wo) (rscale 39 wi)) (radd (rscale 25 wo) (rscale 39 wi)) = 256 /\
  rdot wo h * rdot wi h = - (48 / 65).
Proof.
  cbv zeta; split; [unfold unit, rdot; cbn; field |]; split; [unfold unit, rdot; cbn; field |]; split; [cbn; lra |].
  split; [split; cbn; intros; [auto | lra] |].
  split; [| split; unfold rdot; cbn; field].
  split; [unfold unit, rdot; cbn; field |]; split; [unfold rdot; cbn; lra |]; split; [unfold rdot; cbn; lra |].
  exists (-16); apply rv_eq; cbn; field.
Qed.

(* C303: a positive value between directions no small interface joins *)
Theorem impossible_refraction_refuted : forall d eta_i eta_t wo wi no ni h k, 0 < eta_i -> 0 < eta_t ->
  unit wo -> unit wi -> rz wo * rz wi < 0 -> sides eta_i eta_t wo no ni -> unit h -> 0 < rz h ->
  radd (rscale no wo) (rscale ni wi) = rscale k h -> k <> 0 -> off_tolerance (k * k) -> 0 < rdot wo h * rdot wi h ->
  / 100000 < no * no * Rabs (d_D d h * d_G d wo wi * rdot wo h * rdot wi h) ->
  dielectric_eval eta_i eta_t (rdot wi h) < 1 ->
  0 < trans_value d eta_i eta_t wo wi /\ forall h', ~ joins no ni h' wo wi.
Proof.
  intros d ei et wo wi no ni h k EI ET U V Z SD H HZ J K O C UP F.
  assert (N : 0 < no /\ 0 < ni).
  { destruct SD as [S1 S2]; destruct (Rtotal_order (rz wo) 0) as [L | [L | L]]; [| rewrite L in Z; lra |];
      [destruct (S2 L) as [-> ->] | destruct (S1 L) as [-> ->]]; auto. }
  destruct N as [NO NI].
  assert (E1 : no * rdot wo h + ni * rdot wi h = k).
  { transitivity (rdot (radd (rscale no wo) (rscale ni wi)) h); [unfold rdot; cbn; ring | rewrite J].
    transitivity (k * rdot h h); [unfold rdot; cbn; ring | rewrite H; ring]. }
  assert (X : rsub (rscale no (rneg wo)) (rscale ni wi) = rscale (- k) h).
  { transitivity (rneg (radd (rscale no wo) (rscale ni wi))); [apply rv_eq; cbn; ring | rewrite J; apply rv_eq; cbn; ring]. }
  split.
  - assert (IZ : is_zero (rsub (rscale no (rneg wo)) (rscale ni wi)) = false).
    { rewrite X; unfold is_zero; cbn; destruct (Req_EM_T (- k * rx h) 0); [| reflexivity].
      destruct (Req_EM_T (- k * ry h) 0); [| reflexivity]; destruct (Req_EM_T (- k * rz h) 0) as [W |]; [| reflexivity].
      apply Rmult_integral in W; lra. }
    rewrite (value_form d ei et wo wi no ni SD Z IZ); cbv zeta.
    assert (B : bisector no ni wo wi = h).
    { unfold bisector; rewrite X, normalize_scale; [| exact H | lra | replace (- k * - k) with (k * k) by ring; exact O].
      unfold upwards; destruct (Rlt_dec 0 (- k)); [destruct (Rlt_dec (rz h) 0); [lra | reflexivity] |].
      cbn [rneg rz]; destruct (Rlt_dec (- rz h) 0); [destruct h; unfold rneg; cbn; f_equal; ring | lra]. }
    rewrite B; assert (UE : Rabs (no * no * d_D d h * d_G d wo wi * rdot wo h * rdot wi h) = no * no * Rabs (d_D d h * d_G d wo wi * rdot wo h * rdot wi h)).
    { rewrite <- (Rabs_pos_eq (no * no)) at 2 by nra; rewrite <- Rabs_mult; f_equal; ring. }
    set (up := no * no * d_D d h * d_G d wo wi * rdot wo h * rdot wi h) in *.
    destruct (Rle_dec (Rabs up) (/ 100000)) as [Y | _]; [lra |].
    apply Rmult_lt_0_compat; [lra |]; apply Rabs_pos_lt; rewrite E1; unfold Rdiv; apply Rmult_integral_contrapositive_currified.
    + intro W; rewrite W, Rabs_R0 in UE; lra.
    + apply Rinv_neq_0_compat; repeat apply Rmult_integral_contrapositive_currified; try assumption; intro W; rewrite W in Z; lra.
  - intros h' (H' & A & B & k' & J').
    assert (P : 0 < (rz wo * rz wi) * (rdot wo h' * rdot wi h')).
    { replace ((rz wo * rz wi) * (rdot wo h' * rdot wi h')) with ((rz wo * rdot wo h') * (rz wi * rdot wi h')) by ring; apply Rmult_lt_0_compat; assumption. }
    assert (Q : (k * k) * (rdot wo h * rdot wi h) = (k' * k') * (rdot wo h' * rdot wi h')).
    { transitivity (rdot wo (rscale k h) * rdot wi (rscale k h)); [unfold rdot; cbn; ring |].
      rewrite <- J, J'; unfold rdot; cbn; ring. }
    assert (0 < k * k) by (apply (Rsqr_pos_lt k K)); assert (0 <= k' * k') by (apply (Rle_0_sqr k')).
    assert (0 < (k * k) * (rdot wo h * rdot wi h)) by (apply Rmult_lt_0_compat; assumption).
    assert (rdot wo h' * rdot wi h' < 0) by (clear - P Z; set (a := rdot wo h' * rdot wi h') in *; nra).
    assert ((k' * k') * (rdot wo h' * rdot wi h') <= 0) by (clear - H1 H3; nra); lra.
Qed.
Print Assumptions impossible_refraction_refuted.

Example impossible_refraction_ex :
  let wo := RV (3 / 5) 0 (4 / 5) in let wi := RV (3 / 5) 0 (- (4 / 5)) in
  0 < trans_value (ggx 1) 1 (7 / 3) wo wi /\ forall h', ~ joins 1 (7 / 3) h' wo wi.
Proof.
  cbv zeta; apply (impossible_refraction_refuted (ggx 1) 1 (7 / 3) _ _ 1 (7 / 3) (RV (- (15 / 17)) 0 (8 / 17)) (- (34 / 15))).
  1, 2: lra.
  1, 2, 5: unfold unit, rdot; cbn; field.
  - cbn; lra.
  - split; cbn; intros; [auto | lra].
  - cbn; lra.
  - apply rv_eq; cbn; field.
  - lra.
  - right; rewrite Rabs_pos_eq; lra.
  - unfold rdot; cbn; lra.
  - cbn [d_D d_G ggx]; unfold rdot; cbn [rx ry rz].
    assert (D : ggx_D 1 (RV (- (15 / 17)) 0 (8 / 17)) = / PI).
    { unfold ggx_D; cbn [rz]; destruct (Req_EM_T (8 / 17) 0) as [X | _]; [exfalso; lra |]; rewrite Rmax_right by lra.
      pose proof PI_RGT_0; field; lra. }
    assert (G : forall w, rz w * rz w = 16 / 25 -> 2 / 3 <= ggx_G1 1 w).
    { intros w W; unfold ggx_G1; rewrite W; destruct (Req_EM_T (16 / 25) 0) as [X | _]; [exfalso; lra |]; rewrite Rmax_right by lra.
      replace (1 + 1 * (1 - 16 / 25 * (16 / 25)) / (16 / 25)) with (769 / 400) by field.
      assert (S : sqrt (769 / 400) <= 2) by (rewrite <- (sqrt_square 2) by lra; apply sqrt_le_1; lra).
      pose proof (sqrt_pos (769 / 400)); apply (Rmult_le_reg_r (1 + sqrt (769 / 400))); [lra |]; field_simplify; lra. }
    rewrite D; unfold ggx_G.
    pose proof (G (RV (3 / 5) 0 (4 / 5)) ltac:(cbn; field)) as G1; pose proof (G (RV (3 / 5) 0 (- (4 / 5))) ltac:(cbn; field)) as G2.
    set (a := ggx_G1 1 (RV (3 / 5) 0 (4 / 5))) in *; set (b := ggx_G1 1 (RV (3 / 5) 0 (- (4 / 5)))) in *; clearbody a b; clear - D G1 G2.
    assert (P : / 4 <= / PI) by (apply Rinv_le_contravar; [apply PI_RGT_0 | apply PI_4]).
    assert (Q : 4 / 9 <= a * b) by (apply Rle_trans with (2 / 3 * (2 / 3)); [lra | apply Rmult_le_compat; lra]).
    assert (T : / 4 * (4 / 9) <= / PI * (a * b)) by (apply Rmult_le_compat; lra).
    match goal with |- _ < _ * Rabs ?e => replace e with (/ PI * (a * b) * (1001 / 7225)) by (pose proof PI_RGT_0; field; lra) end.
    rewrite Rabs_pos_eq; lra.
  - assert (E : rdot (RV (3 / 5) 0 (- (4 / 5))) (RV (- (15 / 17)) 0 (8 / 17)) = - (77 / 85)) by (unfold rdot; cbn; field).
    rewrite E; unfold dielectric_eval; destruct (Rlt_dec (- (77 / 85)) 0) as [_ | X]; [| exfalso; lra].
    rewrite Ropp_involutive, Rmax_right by lra; replace (1 - 77 / 85 * (77 / 85)) with (36 / 85 * (36 / 85)) by field.
    rewrite sqrt_square by lra; replace (7 / 3 / 1 * (36 / 85)) with (84 / 85) by field.
    destruct (Rle_dec 1 (84 / 85)) as [X | _]; [exfalso; lra |]; rewrite Rmax_right by lra.
    replace (1 - 84 / 85 * (84 / 85)) with (13 / 85 * (13 / 85)) by field; rewrite sqrt_square by lra.
    unfold dielectric_terms; field_simplify; lra.
Qed.
