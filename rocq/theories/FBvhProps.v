(* The walk through the Bvh in single precision: rounding loses no triangle. *)
From Coq Require Import ZArith Reals Lra Lia List Bool.
From Flocq Require Import Core.Core IEEE754.BinarySingleNaN.
From Verif Require Import Common FltModel FltFacts FExtFacts FRayModel FRayFacts FRayProps FKdSpec FKdProps.
Import ListNotations.
Local Open Scope R_scope.

Fixpoint bsize {A} (t : fbvh A) : nat :=
  match t with BLeaf _ _ => 1 | BNode _ _ sl sr => S (bsize sl + bsize sr) end.
Fixpoint btris {A} (t : fbvh A) : list A :=
  match t with BLeaf _ l => l | BNode _ _ sl sr => btris sl ++ btris sr end.
(* what the construction guarantees (BvhProps): the box of a node holds the boxes of its
   triangles; and the ray does not run in the plane of a face *)
Fixpoint boxed {A} (tbox : A -> fbox) (r : fray) (t : fbvh A) : Prop :=
  faces_ok r (fbvh_box t) /\ (forall a, In a (btris t) -> inside_of (tbox a) (fbvh_box t)) /\
  match t with BLeaf _ _ => True | BNode _ _ sl sr => boxed tbox r sl /\ boxed tbox r sr end.

Section Walk.
Variable r : fray.
Hypothesis OK : ray_ok r.
Context {A : Type} (tbox : A -> fbox).
Variable first : A -> fray -> option f32.
Variable hit : A -> fray -> f32 -> option f32.
Hypothesis HIT : reports_first first hit.
Hypothesis FACES : forall a, faces_ok r (tbox a).

Definition better (D d : f32) : Prop := ev d < ev D.

(* [found] records whether something closer than the first distance was met *)
Definition state_ok (P : A -> Prop) (D : f32) (found : option A) (best : f32) : Prop :=
  number best /\
  match found with
  | None => best = D
  | Some a => P a /\ first a r = Some best /\ ev best <= ev D
  end.

Lemma tris_spec : forall l (P : A -> Prop) D found best, number D -> state_ok P D found best -> (forall a, In a l -> P a) ->
  let (found', best') := f_tris hit l r found best in
  state_ok P D found' best' /\ ev best' <= ev best /\ (found <> None -> found' <> None) /\
  forall a d, In a l -> first a r = Some d -> ev d < ev D -> ev best' <= ev d /\ found' <> None.
Proof using HIT.
  induction l as [|a l IH]; intros P D found best ND S SUB; cbn [f_tris].
  { split; [exact S | split; [lra | split; [auto | intros a d []]]]. }
  pose proof (HIT a r best (proj1 S)) as HA; destruct (hit a r best) as [d |].
  - assert (FA : first a r = Some d /\ number d /\ ev d <= ev best).
    { destruct (first a r) as [d' |]; [| discriminate]; destruct HA as (N & [X | X] & H1 & H2); [| discriminate].
      injection X as ->; split; [reflexivity | split; [exact N |]].
      destruct (Rle_or_lt (ev d') (ev best)) as [Y | Y]; [exact Y | specialize (H2 Y); discriminate]. }
    destruct FA as (FA & N & LD).
    assert (LB : ev best <= ev D) by (destruct S as (_ & S); destruct found; [apply S | rewrite S; lra]).
    assert (S' : state_ok P D (Some a) d).
    { split; [exact N |]; split; [apply SUB; left; reflexivity | split; [exact FA | lra]]. }
    specialize (IH P D (Some a) d ND S' (fun x I => SUB x (or_intror I))).
    destruct (f_tris hit l r (Some a) d) as [f' b']; destruct IH as (S2 & L2 & K2 & C2).
    split; [exact S2 | split; [lra | split; [intros _; apply K2; discriminate |]]].
    intros x d' [-> | I] F LT; [| apply (C2 x d' I F LT)]; rewrite FA in F; injection F as <-.
    split; [exact L2 | apply K2; discriminate].
  - specialize (IH P D found best ND S (fun x I => SUB x (or_intror I))).
    destruct (f_tris hit l r found best) as [f' b']; destruct IH as (S2 & L2 & K2 & C2).
    split; [exact S2 | split; [exact L2 | split; [exact K2 |]]].
    intros x d' [-> | I] F LT; [| apply (C2 x d' I F LT)]; rewrite F in HA; destruct HA as (N & _ & H1 & _).
    assert (GE : ev best <= ev d').
    { destruct (Rlt_or_le (ev d') (ev best)) as [Y | Y]; [specialize (H1 Y); discriminate | exact Y]. }
    split; [lra |]; apply K2; destruct S as (_ & S); destruct found; [discriminate | rewrite S in GE; lra].
Qed.

Fixpoint works (jobs : list (fbvh A)) : nat := match jobs with [] => 0 | n :: jobs => bsize n + works jobs end.
Definition pending (jobs : list (fbvh A)) (a : A) : Prop := exists n, In n jobs /\ In a (btris n).

Lemma bvh_spec : forall fuel (P : A -> Prop) D jobs found best, (works jobs < fuel)%nat -> number D ->
  state_ok P D found best -> (forall n, In n jobs -> boxed tbox r n) -> (forall a, pending jobs a -> P a) ->
  exists found' best', f_bvh hit fuel r jobs found best = Ok (found', best') /\
    state_ok P D found' best' /\ ev best' <= ev best /\ (found <> None -> found' <> None) /\
    forall a d p, pending jobs a -> first a r = Some d -> within_box (tbox a) r p -> ev d < ev D ->
      ev best' <= Rmax (ev d) (ev p) /\ found' <> None.
Proof using OK HIT FACES.
  induction fuel as [|fuel IH]; intros P D jobs found best W ND S BX SUB; [lia |].
  cbn [f_bvh]; destruct jobs as [|n jobs].
  { exists found, best; split; [reflexivity | split; [exact S | split; [lra | split; [auto |]]]].
    intros a d p (n & [] & _). }
  assert (BN := BX n (or_introl eq_refl)); assert (BJ := fun m I => BX m (or_intror I)); clear BX.
  assert (NEST : forall a d, In a (btris n) -> within_box (tbox a) r d ->
            exists q1 q2, f_slab (fbvh_box n) r = Some (q1, q2) /\ number q1 /\ ev q1 <= ev d).
  { intros a d I (p1 & p2 & E & _ & L).
    assert (FN : faces_ok r (fbvh_box n)) by (destruct n; apply BN).
    assert (IN : inside_of (tbox a) (fbvh_box n)) by (destruct n; apply BN, I).
    destruct (float_box_nested r (tbox a) (fbvh_box n) OK (FACES a) FN IN p1 p2 E) as (q1 & q2 & EQ & L1 & _).
    destruct (slab_axis r OK _ _ _ 0 FN EQ) as (N1 & _); destruct (slab_axis r OK _ _ _ 0 (FACES a) E) as (N2 & _).
    exists q1, q2; split; [exact EQ | split; [exact N1 |]]; apply fle_ev in L1; [lra | assumption | assumption]. }
  assert (SZ : (1 <= bsize n)%nat) by (destruct n; cbn [bsize]; lia).
  assert (SKIP : (forall a d p, In a (btris n) -> first a r = Some d -> within_box (tbox a) r p -> ev d < ev D ->
                    ev best <= Rmax (ev d) (ev p) /\ found <> None) ->
    exists found' best', f_bvh hit fuel r jobs found best = Ok (found', best') /\
      state_ok P D found' best' /\ ev best' <= ev best /\ (found <> None -> found' <> None) /\
      forall a d p, pending (n :: jobs) a -> first a r = Some d -> within_box (tbox a) r p -> ev d < ev D ->
        ev best' <= Rmax (ev d) (ev p) /\ found' <> None).
  { intro H; destruct (IH P D jobs found best) as (f' & b' & E & S' & L' & K' & C'); try assumption.
    - cbn [works] in W; lia.
    - intros a (m & I & X); apply SUB; exists m; split; [right; exact I | exact X].
    - exists f', b'; split; [exact E | split; [exact S' | split; [exact L' | split; [exact K' |]]]].
      intros a d p (m & [<- | I] & X) F WB LT; [| apply (C' a d p); try assumption; exists m; auto].
      destruct (H a d p X F WB LT) as [H1 H2]; split; [lra | apply K', H2]. }
  destruct (f_slab (fbvh_box n) r) as [[dmin dmax] |] eqn:ES.
  2:{ apply SKIP; intros a d p I _ WB _; destruct (NEST a p I WB) as (q1 & q2 & E & _); discriminate. }
  destruct (match found with Some _ => fgt dmin best | None => false end) eqn:PR.
  { apply SKIP; intros a d p I _ WB _; destruct (NEST a p I WB) as (q1 & q2 & E & N1 & L); injection E as <- <-.
    destruct found as [a' |]; [| discriminate]; change (fgt dmin best) with (flt best dmin) in PR.
    apply flt_ev in PR; [| apply S | exact N1]; pose proof (Rmax_r (ev d) (ev p)); split; [lra | discriminate]. }
  clear SKIP NEST PR; destruct n as [b l | b ax sl sr].
  - pose proof (tris_spec l P D found best ND S (fun a I => SUB a (ex_intro _ (BLeaf b l) (conj (or_introl eq_refl) I)))) as T.
    destruct (f_tris hit l r found best) as [f1 b1]; destruct T as (S1 & L1 & K1 & C1).
    destruct (IH P D jobs f1 b1) as (f' & b' & E & S' & L' & K' & C'); try assumption.
    + cbn [works] in W; lia.
    + intros a (m & I & X); apply SUB; exists m; split; [right; exact I | exact X].
    + exists f', b'; split; [exact E | split; [exact S' | split; [lra | split; [auto |]]]].
      intros a d p (m & [<- | I] & X) F WB LT; [| apply (C' a d p); try assumption; exists m; auto].
      cbn [btris] in X; destruct (C1 a d X F LT) as [H1 H2]; pose proof (Rmax_l (ev d) (ev p)); split; [lra | apply K', H2].
  - cbn [boxed btris bsize works] in *; destruct BN as (_ & _ & BL & BR).
    assert (GO : forall x y, (x = sl /\ y = sr) \/ (x = sr /\ y = sl) ->
      exists found' best', f_bvh hit fuel r (x :: y :: jobs) found best = Ok (found', best') /\
        state_ok P D found' best' /\ ev best' <= ev best /\ (found <> None -> found' <> None) /\
        forall a d p, pending (BNode b ax sl sr :: jobs) a -> first a r = Some d -> within_box (tbox a) r p -> ev d < ev D ->
          ev best' <= Rmax (ev d) (ev p) /\ found' <> None).
    { intros x y XY; destruct (IH P D (x :: y :: jobs) found best) as (f' & b' & E & S' & L' & K' & C'); try assumption.
      - cbn [works]; destruct XY as [[-> ->] | [-> ->]]; lia.
      - intros m [<- | [<- | I]]; [| | apply BJ, I]; destruct XY as [[-> ->] | [-> ->]]; assumption.
      - intros a (m & I & X); apply SUB; destruct I as [<- | [<- | I]].
        + exists (BNode b ax sl sr); split; [left; reflexivity |]; cbn [btris]; apply in_or_app.
          destruct XY as [[-> ->] | [-> ->]]; auto.
        + exists (BNode b ax sl sr); split; [left; reflexivity |]; cbn [btris]; apply in_or_app.
          destruct XY as [[-> ->] | [-> ->]]; auto.
        + exists m; split; [right; exact I | exact X].
      - exists f', b'; split; [exact E | split; [exact S' | split; [exact L' | split; [exact K' |]]]].
        intros a d p (m & [<- | I] & X) F WB LT; apply (C' a d p); try assumption.
        + cbn [btris] in X; apply in_app_or in X; destruct XY as [[-> ->] | [-> ->]]; destruct X as [X | X].
          * exists sl; cbn; auto.
          * exists sr; cbn; auto.
          * exists sl; cbn; auto.
          * exists sr; cbn; auto.
        + exists m; cbn; auto. }
    destruct (f_isneg r ax); apply GO; auto.
Qed.
End Walk.

Theorem float_bvh_complete : forall A (tbox : A -> fbox) first hit r t D,
  ray_ok r -> reports_first first hit -> (forall a, faces_ok r (tbox a)) -> boxed tbox r t -> number D ->
  exists found best, f_bvh hit (S (bsize t)) r [t] None D = Ok (found, best) /\
    (forall a d p, In a (btris t) -> first a r = Some d -> within_box (tbox a) r p -> flt d D = true ->
       (fle best d = true \/ fle best p = true) /\ found <> None) /\
    match found with
    | None => best = D
    | Some a => In a (btris t) /\ first a r = Some best /\ fle best D = true
    end.
Proof.
  intros A tbox first hit r t D OK HIT FA BX ND.
  destruct (bvh_spec r OK tbox first hit HIT FA (S (bsize t)) (fun a => In a (btris t)) D [t] None D) as (f & b & E & S & L & _ & C);
    try assumption.
  - cbn [works]; lia.
  - split; [exact ND | reflexivity].
  - intros n [<- | []]; exact BX.
  - intros a (n & [<- | []] & I); exact I.
  - exists f, b; split; [exact E |]; destruct S as (NB & S); split.
    + intros a d p I F WB LT.
      assert (N : number d) by (specialize (HIT a r D ND); rewrite F in HIT; apply HIT).
      apply flt_ev in LT; [| exact N | exact ND].
      destruct (C a d p) as [C1 C2]; try assumption; [exists t; split; [left; reflexivity | exact I] |].
      assert (NP : number p).
      { destruct WB as (p1 & p2 & _ & PD & _); unfold number; destruct p; try reflexivity; cbn [ev] in PD; unfold val in PD; cbn [B2R] in PD; lra. }
      split; [| exact C2]; rewrite !fle_ev by assumption; unfold Rmax in C1; destruct (Rle_dec (ev d) (ev p)); auto.
    + destruct f as [a |]; [| exact S]; destruct S as (I & F & LE); split; [exact I | split; [exact F | apply fle_ev; assumption]].
Qed.
Print Assumptions float_bvh_complete.
