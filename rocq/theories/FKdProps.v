(* The walk through the kd-tree in single precision: rounding loses no asset. *)
From Coq Require Import ZArith Reals Lra Lia List Bool.
From Flocq Require Import Core.Core IEEE754.BinarySingleNaN.
From Verif Require Import Common FltModel FltFacts FExtFacts FRayModel FRayFacts FRayProps FKdSpec.
Import ListNotations.
Local Open Scope R_scope.

Section Walk.
Variable r : fray.
Hypothesis OK : ray_ok r.

Lemma left_below : forall k s, plane_ok r k s ->
  (flt (fcoord k (fr_o r)) s || (Beqb (fcoord k (fr_o r)) s && fle (fcoord k (fr_d r)) fzero) = true <->
   if f_isneg r k then val (fcoord k (fr_o r)) <= val s else val (fcoord k (fr_o r)) < val s).
Proof using OK.
  intros k s [FS A]; destruct (OK k) as (FO & FD & B); destruct fzero_val as [FZ VZ].
  rewrite orb_true_iff, andb_true_iff, flt_val, fle_val, VZ by assumption.
  rewrite Beqb_correct by assumption.
  assert (E : Req_bool (B2R (fcoord k (fr_o r))) (B2R s) = true <-> val (fcoord k (fr_o r)) = val s).
  { unfold val; destruct (Req_bool_spec (B2R (fcoord k (fr_o r))) (B2R s)); split; intro; congruence. }
  rewrite E; clear E.
  destruct (inv_cases _ FD B) as [(FI & PI & AI) | [t E]].
  - fold (f_inv r k) in *; pose proof (isneg_fin r k FI) as I; destruct (f_isneg r k).
    + assert (L : val (f_inv r k) < 0) by (apply I; reflexivity).
      assert (D : val (fcoord k (fr_d r)) <= 0) by nra.
      split; [intros [X | X]; lra |]; intro X; destruct (Req_dec (val (fcoord k (fr_o r))) (val s)); [right; auto | left; lra].
    + assert (L : ~ val (f_inv r k) < 0) by (intro H; apply I in H; discriminate).
      assert (D : ~ val (fcoord k (fr_d r)) <= 0) by (intro; nra).
      split; [intros [X | X]; [exact X | tauto] |]; intro; left; assumption.
  - fold (f_inv r k) in E; rewrite E in A; destruct A as [A | A]; [discriminate |].
    destruct (f_isneg r k).
    + split; [intros [X | X]; lra |]; intro; left; lra.
    + split; [intros [X | X]; [exact X | exfalso; apply A; symmetry; apply X] |]; intro; left; assumption.
Qed.

(* the child the ray enters first, if it meets the plane in front of the origin *)
Definition entered {A} (k : nat) (lower upper : ftree A) : ftree A := if f_isneg r k then upper else lower.
Definition other {A} (k : nat) (lower upper : ftree A) : ftree A := if f_isneg r k then lower else upper.

Lemma slab_axis : forall b p1 p2 k, faces_ok r b -> f_slab b r = Some (p1, p2) ->
  number p1 /\ number p2 /\ ev (f_near b r k) <= ev p1 /\ ev p2 <= ev (f_far b r k) /\ ev p1 <= ev p2.
Proof using OK.
  intros b p1 p2 k F E; pose proof (slab_spec b r (near_far r b OK F)) as S; rewrite E in S.
  destruct S as (N1 & N2 & E1 & E2 & L); split; [exact N1 | split; [exact N2 |]].
  assert (LL : ev p1 <= ev p2) by (rewrite E1, E2; exact L); clear L.
  unfold nears in E1; unfold fars in E2.
  assert (X : ev (f_near b r k) <= ev p1 /\ ev p2 <= ev (f_far b r k)).
  { rewrite E1, E2; destruct k as [|[|k]].
    - split; [eapply Rle_trans; [apply Rmax_l | apply Rmax_l] | eapply Rle_trans; [apply Rmin_l | apply Rmin_l]].
    - split; [eapply Rle_trans; [apply Rmax_r | apply Rmax_l] | eapply Rle_trans; [apply Rmin_l | apply Rmin_r]].
    - change (f_near b r (S (S k))) with (f_near b r 2); change (f_far b r (S (S k))) with (f_far b r 2).
      split; [apply Rmax_r | apply Rmin_r]. }
  tauto.
Qed.

Lemma which_side : forall A (lower upper : ftree A) a b k s d, plane_ok r k s -> faces_ok r b ->
  within_box b r d -> listed (FNode k s lower upper) a b ->
  (ev d < ev (f_meet r k s) -> listed (entered k lower upper) a b) /\
  (ev (f_meet r k s) < ev d -> listed (other k lower upper) a b) /\
  (listed (entered k lower upper) a b \/ listed (other k lower upper) a b).
Proof using OK.
  intros A lower upper a b k s d PS FB (p1 & p2 & E & PD & L) (L1 & L2 & L3).
  destruct (slab_axis b p1 p2 k FB E) as (N1 & N2 & B1 & B2 & _); destruct (FB k) as (PL & PH & _).
  unfold f_near, f_far in B1, B2; unfold entered, other.
  assert (ML : val s <= val (fcoord k (fb_lo b)) \/ val (fcoord k (fb_lo b)) < val s) by lra.
  assert (MH : val (fcoord k (fb_hi b)) <= val s \/ val s < val (fcoord k (fb_hi b))) by lra.
  pose proof (meet_mono r OK k _ _ PS PL) as X1; pose proof (meet_mono r OK k _ _ PH PS) as X2.
  destruct (f_isneg r k).
  - split; [| split; [| tauto]]; intro H.
    + apply L2; destruct MH as [MH | MH]; [specialize (X2 MH); lra | exact MH].
    + apply L1; destruct ML as [ML | ML]; [specialize (X1 ML); lra | exact ML].
  - split; [| split; [| tauto]]; intro H.
    + apply L1; destruct ML as [ML | ML]; [specialize (X1 ML); lra | exact ML].
    + apply L2; destruct MH as [MH | MH]; [specialize (X2 MH); lra | exact MH].
Qed.

Context {A : Type} (box : A -> fbox).
Variable first : A -> fray -> option f32.
Variable hit : A -> fray -> f32 -> option f32.
Hypothesis HIT : reports_first first hit.

(* the answer for the assets [l] is not worse than [best], and comes from one of them *)
Definition answers (P : A -> Prop) (found : option A) (best : f32) (found' : option A) (best' : f32) : Prop :=
  number best' /\ ev best' <= ev best /\
  ((found', best') = (found, best) \/ exists a, P a /\ found' = Some a /\ first a r = Some best').

Lemma leaf_spec : forall l found best, number best ->
  let (found', best') := f_leaf box hit l r found best in
  answers (fun a => In a l) found best found' best' /\
  forall a d t, In a l -> first a r = Some d -> within_box (box a) r t -> faces_ok r (box a) -> ev best' <= Rmax (ev d) (ev t).
Proof using HIT OK.
  induction l as [|a l IH]; intros found best N; cbn [f_leaf].
  { split; [| intros a d t []]; split; [exact N | split; [lra | left; reflexivity]]. }
  assert (SKIP : (forall d t, first a r = Some d -> within_box (box a) r t -> faces_ok r (box a) -> ev best <= Rmax (ev d) (ev t)) ->
    let (found', best') := f_leaf box hit l r found best in
    answers (fun x => In x (a :: l)) found best found' best' /\
    forall x d t, In x (a :: l) -> first x r = Some d -> within_box (box x) r t -> faces_ok r (box x) -> ev best' <= Rmax (ev d) (ev t)).
  { intro H; specialize (IH found best N); destruct (f_leaf box hit l r found best) as [f' b'].
    destruct IH as ((N' & L' & S') & C'); split.
    - split; [exact N' | split; [exact L' |]]; destruct S' as [S' | (x & I & S')]; [left; exact S' | right; exists x; split; [right; exact I | exact S']].
    - intros x d t [-> | I] F W K; [| apply (C' x d t I F W K)]; apply Rle_trans with (ev best); [exact L' | apply (H d t F W K)]. }
  destruct (f_slab (box a) r) as [[res1 res2] |] eqn:ES.
  2:{ apply SKIP; intros d t F (p1 & p2 & E & _); congruence. }
  destruct (flt res1 best) eqn:LT.
  2:{ apply SKIP; intros d t F (p1 & p2 & E & PD & L) K; rewrite ES in E; injection E as <- <-.
      destruct (slab_axis (box a) res1 res2 0 K ES) as (N1 & _).
      apply flt_false_ev in LT; [pose proof (Rmax_r (ev d) (ev t)); lra | exact N1 | exact N]. }
  pose proof (HIT a r best N) as HA; destruct (hit a r best) as [d |] eqn:EH.
  - assert (FA : first a r = Some d /\ number d /\ ev d <= ev best).
    { destruct (first a r) as [d' |]; [| discriminate]; destruct HA as (ND & [X | X] & H1 & H2); [| discriminate].
      injection X as ->; split; [reflexivity | split; [exact ND |]].
      destruct (Rle_or_lt (ev d') (ev best)) as [Y | Y]; [exact Y | specialize (H2 Y); discriminate]. }
    destruct FA as (FA & ND & LD); specialize (IH (Some a) d ND).
    destruct (f_leaf box hit l r (Some a) d) as [f' b']; destruct IH as ((N' & L' & S') & C'); split.
    + split; [exact N' | split; [lra |]]; right; destruct S' as [S' | (x & I & S')].
      * injection S' as -> ->; exists a; split; [left; reflexivity | split; [reflexivity | exact FA]].
      * exists x; split; [right; exact I | exact S'].
    + intros x d' t [-> | I] F W K; [| apply (C' x d' t I F W K)]; rewrite FA in F; injection F as <-; pose proof (Rmax_l (ev d) (ev t)); lra.
  - apply SKIP; intros d t F W _; rewrite F in HA; destruct HA as (ND & _ & H1 & _); pose proof (Rmax_l (ev d) (ev t)).
    destruct (Rlt_or_le (ev d) (ev best)) as [Y | Y]; [specialize (H1 Y); discriminate | lra].
Qed.

Fixpoint chain (m : R) (jobs : list (ftree A * f32 * f32)) : Prop :=
  match jobs with
  | [] => True
  | (n, a, b) :: jobs => number a /\ number b /\ m <= ev a <= ev b /\ planes_ok r n /\ chain (ev b) jobs
  end.
Fixpoint work (jobs : list (ftree A * f32 * f32)) : nat :=
  match jobs with [] => 0 | (n, _, _) :: jobs => fsize n + work jobs end.
(* the asset is still to be met with its hit at d *)
Fixpoint waiting (jobs : list (ftree A * f32 * f32)) (a : A) (d : f32) : Prop :=
  match jobs with
  | [] => False
  | (n, m, M) :: jobs => (ev m <= ev d <= ev M /\ listed n a (box a)) \/ waiting jobs a d
  end.
Fixpoint among (jobs : list (ftree A * f32 * f32)) (a : A) : Prop :=
  match jobs with [] => False | (n, _, _) :: jobs => In a (fassets n) \/ among jobs a end.

Lemma waiting_after : forall jobs m a d, chain m jobs -> waiting jobs a d -> m <= ev d.
Proof using.
  induction jobs as [|[[n a'] b'] jobs IH]; intros m a d C W; [destruct W |]; cbn [chain waiting] in *.
  destruct C as (_ & _ & L & _ & C); destruct W as [[W _] | W]; [lra |]; specialize (IH _ _ _ C W); lra.
Qed.

Lemma listed_in : forall (n : ftree A) a b, listed n a b -> In a (fassets n).
Proof using.
  induction n as [l | k s lo IHl up IHu]; intros a b L; cbn [listed fassets] in *; [exact L |].
  apply in_or_app; destruct L as (_ & _ & [L | L]); [left; apply (IHl a b L) | right; apply (IHu a b L)].
Qed.

Lemma answers_weaker : forall (P Q : A -> Prop) f b f' b', (forall a, P a -> Q a) -> answers P f b f' b' -> answers Q f b f' b'.
Proof using.
  intros P Q f b f' b' PQ (N & L & S); split; [exact N | split; [exact L |]].
  destruct S as [S | (a & I & S)]; [left; exact S | right; exists a; split; [apply PQ, I | exact S]].
Qed.

Lemma answers_chain : forall (P Q : A -> Prop) f b f' b' f2 b2, (forall a, P a -> Q a) ->
  answers P f b f' b' -> answers Q f' b' f2 b2 -> answers Q f b f2 b2.
Proof using.
  intros P Q f b f' b' f2 b2 PQ (N & L & S) (N2 & L2 & S2); split; [exact N2 | split; [lra |]].
  destruct S2 as [S2 | S2]; [| right; exact S2]; injection S2 as -> ->.
  destruct S as [S | (a & I & S)]; [left; exact S | right; exists a; split; [apply PQ, I | exact S]].
Qed.

Lemma walk_spec : forall fuel n mint maxt jobs found best,
  (fsize n + work jobs <= fuel)%nat -> number mint -> number maxt -> ev mint <= ev maxt -> number best ->
  planes_ok r n -> chain (ev maxt) jobs ->
  exists found' best', f_walk box hit fuel r n mint maxt jobs found best = Ok (found', best') /\
    answers (fun a => In a (fassets n) \/ among jobs a) found best found' best' /\
    forall a d t, first a r = Some d -> within_box (box a) r t -> faces_ok r (box a) ->
      (ev mint <= ev t <= ev maxt /\ listed n a (box a)) \/ waiting jobs a t -> ev best' <= Rmax (ev d) (ev t).
Proof using HIT OK.
  induction fuel as [|fuel IH]; intros n mint maxt jobs found best W NM NX LE NB PO CH.
  { destruct n; cbn [fsize] in W; lia. }
  cbn [f_walk]; destruct (flt best mint) eqn:BR.
  { exists found, best; split; [reflexivity |].
    split; [split; [exact NB | split; [lra | left; reflexivity]] |].
    apply flt_ev in BR; [| exact NB | exact NM].
    intros a d t _ _ _ H; pose proof (Rmax_r (ev d) (ev t)); destruct H as [[L _] | WA]; [lra |]; pose proof (waiting_after _ _ _ _ CH WA); lra. }
  destruct n as [l | k s lo up].
  - pose proof (leaf_spec l found best NB) as LS; destruct (f_leaf box hit l r found best) as [f1 b1].
    destruct LS as (AN & CO); pose proof (proj1 AN) as N1; pose proof (proj1 (proj2 AN)) as L1.
    destruct jobs as [|[[n' m'] M'] jobs].
    + exists f1, b1; split; [reflexivity | split].
      * apply answers_weaker with (2 := AN); auto.
      * intros a d t F WB FB [[_ I] | []]; apply (CO a d t I F WB FB).
    + cbn [chain work fsize] in *; destruct CH as (Na & Nb & L & PO' & CH).
      destruct (IH n' m' M' jobs f1 b1) as (f2 & b2 & E & AN2 & C2); try assumption; [lia | lra |].
      exists f2, b2; split; [exact E | split].
      * apply answers_chain with (2 := AN) (P := fun a => In a l); [intros a I; left; exact I |].
        apply answers_weaker with (2 := AN2); cbn [among]; tauto.
      * cbn [waiting listed]; intros a d t F WB FB [[_ I] | WA]; [| apply (C2 a d t F WB FB WA)].
        apply Rle_trans with (ev b1); [apply AN2 | apply (CO a d t I F WB FB)].
  - destruct PO as (PS & PL & PU); cbn [fsize fassets] in *.
    pose proof (meet_number r OK k s PS) as NP; pose proof (meet_sign r OK k s PS) as SG.
    pose proof (left_below k s PS) as LB.
    set (planet := f_meet r k s) in *; cbv zeta.
    set (below := flt (fcoord k (fr_o r)) s || _) in *; clearbody below.
    assert (NEAR : (if below then lo else up) = (if Rlt_dec 0 (ev planet) then entered k lo up else other k lo up)).
    { unfold entered, other; destruct (Rlt_dec 0 (ev planet)) as [G | G]; destruct (f_isneg r k); destruct below; try reflexivity; exfalso.
      - assert (X := proj1 LB eq_refl); apply SG in G; lra.
      - apply SG in G; apply LB in G; discriminate.
      - assert (X : ~ val s < val (fcoord k (fr_o r))) by tauto.
        assert (Y : val (fcoord k (fr_o r)) <= val s) by lra; apply LB in Y; discriminate.
      - apply G, SG, LB; reflexivity. }
    assert (FAR : (if below then up else lo) = (if Rlt_dec 0 (ev planet) then other k lo up else entered k lo up)).
    { unfold entered, other in *; destruct (Rlt_dec 0 (ev planet)); destruct (f_isneg r k); destruct below; try reflexivity;
        symmetry; exact NEAR || exact NEAR. }
    clear SG LB; destruct fzero_val as [FZ VZ]; pose proof (fin_number _ FZ) as NZ.
    assert (EZ : ev fzero = 0) by (rewrite ev_fin, VZ by exact FZ; reflexivity).
    assert (SZ : (fsize (entered k lo up) + fsize (other k lo up) = fsize lo + fsize up)%nat)
      by (unfold entered, other; destruct (f_isneg r k); lia).
    assert (SE : (1 <= fsize (entered k lo up))%nat) by (destruct (entered k lo up); cbn [fsize]; lia).
    assert (SO : (1 <= fsize (other k lo up))%nat) by (destruct (other k lo up); cbn [fsize]; lia).
    assert (PE : planes_ok r (entered k lo up)) by (unfold entered; destruct (f_isneg r k); assumption).
    assert (PT : planes_ok r (other k lo up)) by (unfold other; destruct (f_isneg r k); assumption).
    assert (IE : forall a, In a (fassets (entered k lo up)) -> In a (fassets lo ++ fassets up))
      by (intros a I; apply in_or_app; unfold entered in I; destruct (f_isneg r k); auto).
    assert (IO : forall a, In a (fassets (other k lo up)) -> In a (fassets lo ++ fassets up))
      by (intros a I; apply in_or_app; unfold other in I; destruct (f_isneg r k); auto).
    assert (WS : forall a d, within_box (box a) r d -> faces_ok r (box a) -> listed (FNode k s lo up) a (box a) -> 0 < ev d /\
        (ev d < ev planet -> listed (entered k lo up) a (box a)) /\
        (ev planet < ev d -> listed (other k lo up) a (box a)) /\
        (listed (entered k lo up) a (box a) \/ listed (other k lo up) a (box a))).
    { intros a d WB FB LI; split; [destruct WB as (p1 & p2 & _ & PD & _); exact PD |].
      apply which_side; assumption. }
    clearbody planet; clear PL PU PS.
    set (E := entered k lo up) in *; set (O := other k lo up) in *; clearbody E O.
    destruct (fgt planet maxt || fle planet fzero) eqn:C1.
    + apply orb_true_iff in C1; change (fgt planet maxt) with (flt maxt planet) in C1.
      rewrite flt_ev, fle_ev, EZ in C1 by assumption; rewrite NEAR.
      destruct (Rlt_dec 0 (ev planet)) as [G | G].
      * destruct (IH E mint maxt jobs found best) as (f2 & b2 & EQ & AN & CO); try assumption; [lia |].
        exists f2, b2; split; [exact EQ | split].
        -- apply answers_weaker with (2 := AN); intros a [I | I]; auto.
        -- intros a d t F WB FB [[L LI] | WA]; apply (CO a d t F WB FB); [left | right; exact WA].
           split; [exact L |]; destruct (WS a t WB FB LI) as (PD & W1 & _); apply W1; destruct C1; lra.
      * destruct (IH O mint maxt jobs found best) as (f2 & b2 & EQ & AN & CO); try assumption; [lia |].
        exists f2, b2; split; [exact EQ | split].
        -- apply answers_weaker with (2 := AN); intros a [I | I]; auto.
        -- intros a d t F WB FB [[L LI] | WA]; apply (CO a d t F WB FB); [left | right; exact WA].
           split; [exact L |]; destruct (WS a t WB FB LI) as (PD & _ & W2 & _); apply W2; lra.
    + apply orb_false_iff in C1; change (fgt planet maxt) with (flt maxt planet) in C1; destruct C1 as [C1 C2].
      apply flt_false_ev in C1; [| assumption | assumption].
      assert (G : 0 < ev planet).
      { destruct (Rlt_or_le 0 (ev planet)) as [G | G]; [exact G |].
        rewrite <- EZ in G; apply fle_ev in G; [congruence | assumption | assumption]. }
      rewrite NEAR, FAR; destruct (Rlt_dec 0 (ev planet)) as [_ | X]; [| contradiction].
      destruct (flt planet mint) eqn:C3.
      * apply flt_ev in C3; [| assumption | assumption].
        destruct (IH O mint maxt jobs found best) as (f2 & b2 & EQ & AN & CO); try assumption; [lia |].
        exists f2, b2; split; [exact EQ | split].
        -- apply answers_weaker with (2 := AN); intros a [I | I]; auto.
        -- intros a d t F WB FB [[L LI] | WA]; apply (CO a d t F WB FB); [left | right; exact WA].
           split; [exact L |]; destruct (WS a t WB FB LI) as (PD & _ & W2 & _); apply W2; lra.
      * apply flt_false_ev in C3; [| assumption | assumption].
        destruct (IH E mint planet ((O, planet, maxt) :: jobs) found best) as (f2 & b2 & EQ & AN & CO); try assumption.
        { cbn [work]; lia. }
        { cbn [chain]; split; [exact NP | split; [exact NX | split; [lra | split; [exact PT | exact CH]]]]. }
        exists f2, b2; split; [exact EQ | split].
        -- apply answers_weaker with (2 := AN); cbn [among]; intros a [I | [I | I]]; auto.
        -- intros a d t F WB FB H; apply (CO a d t F WB FB); cbn [waiting]; destruct H as [[L LI] | WA]; [| right; right; exact WA].
           destruct (WS a t WB FB LI) as (PD & W1 & W2 & W3).
           destruct (Rtotal_order (ev t) (ev planet)) as [X | [X | X]].
           ++ left; split; [lra | apply W1, X].
           ++ destruct W3 as [W3 | W3]; [left | right; left]; split; try lra; exact W3.
           ++ right; left; split; [lra | apply W2, X].
Qed.
End Walk.

Theorem float_kd_complete : forall A (box : A -> fbox) first hit r scene t,
  ray_ok r -> reports_first first hit -> faces_ok r scene -> planes_ok r t ->
  (forall a, In a (fassets t) -> faces_ok r (box a) /\ inside_of (box a) scene /\ listed t a (box a)) ->
  exists found best, f_kd box hit (fsize t) scene t r = Ok (found, best) /\
    (forall a d p, In a (fassets t) -> first a r = Some d -> within_box (box a) r p -> fle best d = true \/ fle best p = true) /\
    match found with
    | None => best = f_max
    | Some a => In a (fassets t) /\ first a r = Some best /\ fle best f_max = true
    end.
Proof.
  intros A box first hit r scene t OK HIT FS PO AS; unfold f_kd.
  assert (NMAX : number f_max) by (vm_compute; reflexivity).
  destruct (f_slab scene r) as [[mint maxt] |] eqn:ES.
  - destruct (slab_axis r OK scene mint maxt 0 FS ES) as (NM & NX & _ & _ & LE).
    destruct (walk_spec r OK box first hit HIT (fsize t) t mint maxt [] None f_max) as (f & b & E & AN & CO);
      try assumption; [cbn [work]; lia | exact I |].
    exists f, b; split; [exact E |]; destruct AN as (NB & LB & SO); split.
    + intros a d p IA F W; destruct (AS a IA) as (FB & IN & LI).
      assert (ND : number d) by (specialize (HIT a r f_max NMAX); rewrite F in HIT; apply HIT).
      assert (NP : number p).
      { destruct W as (p1 & p2 & _ & PD & _); unfold number; destruct p; try reflexivity; cbn [ev] in PD; unfold val in PD; cbn [B2R] in PD; lra. }
      rewrite !fle_ev by assumption.
      assert (X : ev b <= Rmax (ev d) (ev p)); [| unfold Rmax in X; destruct (Rle_dec (ev d) (ev p)); auto].
      apply (CO a d p F W FB); left; split; [| exact LI].
      destruct W as (p1 & p2 & EP & PD & L).
      destruct (float_box_nested r (box a) scene OK FB FS IN p1 p2 EP) as (q1 & q2 & EQ & L1 & L2 & _).
      rewrite ES in EQ; injection EQ as <- <-; destruct (slab_axis r OK (box a) p1 p2 0 FB EP) as (N1 & N2 & _).
      apply fle_ev in L1; [| assumption | assumption]; apply fle_ev in L2; [| assumption | assumption]; lra.
    + destruct SO as [SO | (a & IA & -> & F)]; [injection SO as -> ->; reflexivity |].
      cbn [among] in IA; split; [tauto | split; [exact F | apply fle_ev; assumption]].
  - exists None, f_max; split; [reflexivity | split; [| reflexivity]].
    intros a d p IA F (p1 & p2 & EP & _); destruct (AS a IA) as (FB & IN & LI).
    destruct (float_box_nested r (box a) scene OK FB FS IN p1 p2 EP) as (q1 & q2 & EQ & _); congruence.
Qed.
Print Assumptions float_kd_complete.
